(** Actuators that follow velocity commands keep the joints inside their soft limits. *)
From Coq Require Import List String QArith Lqa.
From Verif Require Import LimModel LimLaws LimSpec LimExact LimProofs LimRest LimGain LimLoop TransModel TransSpec TransProofs TransExact PropsTrans
  LoopModel LoopSpec LoopProofs LoopLimits PropsLoop SendSpec SendProofs PropsSend FollowSpec FollowProofs.
Import ListNotations.
Local Open Scope string_scope.
Local Open Scope nat_scope.

(** ** C136: velocity controlled actuators keep the joints inside the soft limits *)

(** The soft limits of a joint, as a velocity limiter without acceleration limits needs them. *)
Definition follow_ok (l : limits exact) (s : soft_limits exact) : Prop :=
  has_velocity_limits l = true /\ has_position_limits l = true /\ has_acceleration_limits l = false /\
  bound_ok rational (max_velocity l) /\ soft_ok rational s.

Theorem C136_velocity_soft : forall (L : nat -> limits exact) (S : nat -> soft_limits exact) r i m s,
  let enf h j dt := Some (h, vel_soft_enforce h j dt) in
  let zone k := inside (soft_min (S k)) (soft_max (S k)) in
  let period dt := positive dt /\ forall nm h, In (nm, h) i -> soft_period rational gain_exact (S (lh_joint h)) dt in
  turning r -> each_limited JntToActVelocity Velocity r i ->
  (forall nm h, In (nm, h) i -> lh_state h = vel_soft_make (L (lh_joint h)) (S (lh_joint h)) /\
     follow_ok (L (lh_joint h)) (S (lh_joint h))) ->
  stands_inside zone r m ->
  turning_cycles enf period r (i, m) s ->
  stays_inside enf period zone r s.
Proof.
  intros L S r i m s enf zone period W AL HL PI HC.
  set (used := fun k => exists nm h, In (nm, h) i /\ lh_joint h = k).
  apply (turning_safe r W enf period zone
           (fun k h => used k /\ h = vel_soft_make (L k) (S k) /\ follow_ok (L k) (S k))) with (s := (i, m)); auto.
  - intros k x y. apply within_eq.
  - intros k a b x. apply within_between.
  - intros dt [[R P] _]. destruct dt as [d|]; [|now elim R]. exists d. split; [reflexivity|].
    apply (lt_le exact_laws) in P. now apply exact_le_some in P.
  - intros n p h j dt (Hu & -> & (HV & HPos & HA & HB & HS)) [[R P] Hper] Rc Hz.
    assert (Hsp : soft_period rational gain_exact (S n) dt) by (destruct Hu as (nm & h & Hi & <-); eauto).
    assert (Emax : vf_max (vel_soft_make (L n) (S n)) = max_velocity (L n)) by (unfold vel_soft_make; cbn; now rewrite HV).
    exists (vel_soft_make (L n) (S n)), (vel_soft_enforce (vel_soft_make (L n) (S n)) j dt). split; [reflexivity|].
    split; [unfold follow_ok; auto 10|].
    destruct j as [jp jv jc]. cbn [j_pos j_vel j_cmd] in *.
    assert (Rp : rational jp) by (eapply within_num; exact Hz).
    pose proof (vel_soft_spec exact_laws (L n) (vel_soft_make (L n) (S n)) (mkJoint jp jv jc) dt) as K. cbv zeta in K.
    destruct K as (K1 & _); auto.
    { split; [reflexivity|]. rewrite Emax. split; [exact HB|]. split; [exact HS|]. rewrite HA. discriminate. }
    { now apply rational_numeric. }
    { split; [exact R|]. now apply (lt_le exact_laws). }
    { rewrite HA. discriminate. }
    pose proof (bounded_rational _ _ K1) as Rw. split; [exact Rw|].
    pose proof (follow_step exact_laws exact_gain (L n) (vel_soft_make (L n) (S n)) jp jv jc dt eq_refl HPos HA) as F.
    rewrite Emax in F. specialize (F HB HS Hz (rational_numeric _ Rc) Hsp).
    destruct (j_cmd (vel_soft_enforce (vel_soft_make (L n) (S n)) (mkJoint jp jv jc) dt)) as [v|]; [|now elim Rw].
    destruct dt as [d|]; [|now elim R]. destruct jp as [q|]; [|now elim Rp].
    exists q, d, v. split; [reflexivity|]. split; [reflexivity|]. split; [reflexivity|]. split; [exact Hz | exact F].
  - split; [exact AL|]. split; [|exact PI]. cbn [fst]. intros nm h Hi. destruct (HL nm h Hi) as [E1 E2].
    split; [exists nm, h; auto|]. auto.
Qed.
Print Assumptions C136_velocity_soft.

Lemma vel_turns hs hc ks : turns vel_robot hs hc ks ->
  (hs = doc_hs1 /\ hc = vel_hc1 /\ ks = [0]) \/ (hs = doc_hs2 /\ hc = vel_hc2 /\ ks = [1; 2]).
Proof.
  intros (Hs & Hd & Et & _). apply vel_sends in Hd as [[-> ->] | [-> ->]]; cbn in Hs; destruct Hs as [<- | [<- | []]];
    cbn in Et; try discriminate Et; auto.
Qed.

Lemma vel_turning : turning vel_robot.
Proof.
  destruct doc_made as (M1 & M2 & _ & _ & C1 & C2).
  split; [exact vel_wired|]. split; [|split; [cbn; nodup|split; [apply all_out; reflexivity|split; [apply all_out; reflexivity|]]]].
  - intros h Hh. cbn in Hh. destruct Hh as [<- | [<- | []]]; (split; [|split; [apply all_rational; reflexivity|split; [do 4 eexists; eauto|]]]).
    + right. left. eauto.
    + split; [|cbn; intuition discriminate]. intros q Hq. cbn in Hq. destruct Hq as [<- | [<- | [<- | []]]]; split; discriminate.
    + left. eauto.
    + split; [|cbn; intuition discriminate]. intros q Hq. cbn in Hq. destruct Hq as [<- | [<- | [<- | []]]]; split; discriminate.
  - intros hc ks Hd. pose proof Hd as K. apply vel_sends in K as [[-> ->] | [-> ->]];
      [exists doc_hs1 | exists doc_hs2]; (split; [cbn; auto|]; split; [exact Hd|]; split; reflexivity).
Qed.

(** The joints of the documentation's robot at 0, joint 0 moving down with velocity 10 (its actuator at 10, with
    velocity 100); all commands 0; a period of 1/10. *)
Definition fall_mem : mem exactd := upd exactd (upd exactd doc_mem 0 (n_ 10)) 3 (n_ 100).
Definition tenth : num exact := Some (1 # 10)%Q.
Definition calm_limits : limits exact :=
  @mkLimits exact (n_ (-1)) (n_ 2) (n_ 10) (n_ 20) (n_ 0) (n_ 3) true true false false true false.
Definition soft_enf (h : vel_soft exact) (j : joint exact) (dt : num exact) := Some (h, vel_soft_enforce h j dt).
Definition soft_zone (_ : nat) := inside (soft_min send_softs) (soft_max send_softs).

Lemma fall_inside : stands_inside soft_zone vel_robot fall_mem.
Proof.
  intros hs hc ks Hd. apply vel_turns in Hd as [(-> & _ & ->) | (-> & _ & ->)].
  - exists [0%Q]. split; [exists [10%Q]; split; reflexivity|]. repeat constructor; apply exact_le_some; discriminate.
  - exists [0%Q; 0%Q]. split; [exists [0%Q; 0%Q]; split; [reflexivity|split; reflexivity]|].
    repeat constructor; apply exact_le_some; discriminate.
Qed.

(** What the memory holds after reading: the joints at 0, joint 0 with velocity -10. *)
Definition fall_read : mem exactd := match robot_read exactd vel_robot fall_mem with Ok m => m | _ => fall_mem end.
Lemma fall_asked : robot_read exactd vel_robot fall_mem = Ok fall_read /\ velocities_asked vel_robot fall_read fall_read.
Proof.
  split; [reflexivity|]. split; [intros a _; reflexivity|]. intros a Ha. cbn in Ha.
  destruct Ha as [<- | [<- | [<- | []]]]; discriminate.
Qed.

Example C136_nonvacuous :
  turning vel_robot /\ each_limited JntToActVelocity Velocity vel_robot (send_lims (vel_soft_make calm_limits send_softs)) /\
  follow_ok calm_limits send_softs /\ positive tenth /\ soft_period rational gain_exact send_softs tenth /\
  stands_inside soft_zone vel_robot fall_mem /\
  robot_read exactd vel_robot fall_mem = Ok fall_read /\ velocities_asked vel_robot fall_read (doc_asked fall_read) /\
  match robot_send exactd soft_enf JntToActVelocity vel_robot (send_lims (vel_soft_make calm_limits send_softs))
          (doc_asked fall_read) tenth with
  | Ok (_, m3) => (* 5, -3 and 1/2 asked, at most 15/2 up and 5/2 down allowed *)
      shown m3 [29; 30; 31; 9; 10; 11] = [5; -(5 # 2); 1 # 2; -(50); -(10); -(15)]%Q
  | _ => False
  end.
Proof.
  split; [exact vel_turning|]. split; [apply vel_limited|]. split; [repeat split; try discriminate; reflexivity|].
  split; [split; [discriminate|reflexivity]|]. split.
  { split; [discriminate|]. split; [reflexivity|]. exists 5%Q, (1 # 10)%Q. repeat split. discriminate. }
  split; [exact fall_inside|]. split; [reflexivity|]. split; [|vm_compute; reflexivity].
  split.
  - intros a Ha. unfold doc_asked, upd.
    destruct (Nat.eqb_spec a 31) as [->|N1]; [elim Ha; cbn; auto|].
    destruct (Nat.eqb_spec a 30) as [->|N2]; [elim Ha; cbn; auto|].
    destruct (Nat.eqb_spec a 29) as [->|N3]; [elim Ha; cbn; auto|]. reflexivity.
  - intros a Ha. cbn in Ha. destruct Ha as [<- | [<- | [<- | []]]]; discriminate.
Qed.

(** With acceleration limits the same is not true: joint 0, which moves down fast, may not be braked enough and
    leaves its soft limits although every actuator does what it is told. *)
Definition fall_sent : mem exactd :=
  match robot_send exactd soft_enf JntToActVelocity vel_robot (send_lims (vel_soft_make send_limits send_softs)) fall_read tenth with
  | Ok (_, m) => m | _ => fall_mem
  end.
Theorem C136_acceleration_refuted : exists (l : limits exact) s r i m m1 m2 i' m3 m4,
  has_velocity_limits l = true /\ has_position_limits l = true /\ has_acceleration_limits l = true /\
  bound_ok rational (max_velocity l) /\ bound_ok rational (max_acceleration l) /\ soft_ok rational s /\
  soft_period rational gain_exact s tenth /\
  turning r /\ each_limited JntToActVelocity Velocity r i /\
  (forall nm h, In (nm, h) i -> lh_state h = vel_soft_make l s) /\
  stands_inside (fun _ => inside (soft_min s) (soft_max s)) r m /\
  robot_read exactd r m = Ok m1 /\ velocities_asked r m1 m2 /\
  robot_send exactd soft_enf JntToActVelocity r i m2 tenth = Ok (i', m3) /\ moves r tenth m3 m4 /\
  ~ stands_inside (fun _ => inside (soft_min s) (soft_max s)) r m4.
Proof.
  exists send_limits, send_softs, vel_robot, (send_lims (vel_soft_make send_limits send_softs)), fall_mem, fall_read, fall_read.
  exists (send_lims (vel_soft_make send_limits send_softs)), fall_sent, (upd exactd fall_sent 0 (n_ 18)).
  split; [reflexivity|]. split; [reflexivity|]. split; [reflexivity|].
  split; [repeat split; try discriminate; reflexivity|]. split; [repeat split; try discriminate; reflexivity|].
  split; [repeat split; try discriminate; reflexivity|]. split.
  { split; [discriminate|]. split; [reflexivity|]. exists 5%Q, (1 # 10)%Q. repeat split. discriminate. }
  split; [exact vel_turning|]. split; [apply vel_limited|]. split.
  { intros nm h Hi. cbn in Hi. destruct Hi as [K | [K | [K | []]]]; injection K as <- <-; reflexivity. }
  split; [exact fall_inside|]. split; [reflexivity|]. split; [apply fall_asked|]. split; [reflexivity|]. split.
  - split.
    + intros a Ha. unfold upd. destruct (Nat.eqb_spec a 0) as [->|N]; [elim Ha; cbn; tauto | reflexivity].
    + intros hs hc ks xs vs d Hd Ed Ex Ev. injection Ed as <-.
      apply vel_turns in Hd as [(-> & -> & ->) | (-> & -> & ->)].
      * exists (1 # 10)%Q, [18%Q]. split; [split; discriminate|]. split; [reflexivity|].
        change (map fall_sent [0] = map Some xs) in Ex. change (map fall_sent [9] = map Some vs) in Ev.
        assert (E0 : exists v, fall_sent 9 = Some v /\ (v == 80)%Q) by (eexists; split; [reflexivity | vm_compute; reflexivity]).
        destruct E0 as (v & E0 & E1). cbn [map] in Ev. rewrite E0 in Ev.
        destruct vs as [|v' [|? ?]]; try discriminate Ev. injection Ev as <-.
        assert (E2 : fall_sent 0 = Some 10%Q) by reflexivity. cbn [map] in Ex. rewrite E2 in Ex.
        destruct xs as [|x [|? ?]]; try discriminate Ex. injection Ex as <-.
        cbn [combine]. constructor; [cbn [fst snd]; rewrite E1; reflexivity | constructor].
      * exists 0%Q, xs. split; [split; discriminate|]. split; [exact Ex|].
        assert (Lx : List.length xs = 2) by (rewrite <- (map_length Some), <- Ex; reflexivity).
        assert (Lv : List.length vs = 2) by (rewrite <- (map_length Some), <- Ev; reflexivity).
        destruct xs as [|x [|x' [|? ?]]]; try discriminate Lx. destruct vs as [|v [|v' [|? ?]]]; try discriminate Lv.
        cbn [combine]. constructor; [cbn [fst snd]; ring|]. constructor; [cbn [fst snd]; ring | constructor].
  - intros K. destruct (K doc_hs1 vel_hc1 [0]) as (ys & (xs & Ex & Fx) & Z).
    { split; [cbn; auto|]. split; [split; [cbn; auto | reflexivity]|]. split; reflexivity. }
    inversion Z as [|? y ? l Zy Zl]; subst. inversion Zl; subst.
    change (map Some [18%Q] = map Some xs) in Ex. apply map_some_inj in Ex. subst xs. cbn in Fx.
    destruct Zy as [Zy _]. apply exact_le_some in Zy. rewrite Fx in Zy. vm_compute in Zy. now apply Zy.
Qed.
Print Assumptions C136_acceleration_refuted.
