(** What is claimed about the control loop of LoopModel.v, in terms of the variables of the robot, the
    documented formulas of the transmissions (TransSpec.v) and the limits of the joints.  Exact
    arithmetic. *)
From Coq Require Import List QArith.
From Verif Require Import LimModel LimSpec LimExact TransModel TransSpec LoopModel.
Import ListNotations.

(** A transmission handle made by the constructors, with numbers as parameters and everything it needs
    connected. *)
Definition usable (k : hkind) (h : handle exactd) : Prop :=
  constructed exactd (h_trans exactd h) /\ Forall rational (parameters exactd (h_trans exactd h)) /\
  (exists name tr act jnt, make_handle exactd name tr act jnt = Some h) /\ needed exactd k h.

(** The transmission handles [hs] (state) and [hc] (commands) belong to the same transmission, and their
    joints are those numbered [ks]. *)
Definition drives (r : robot exactd) (hs hc : handle exactd) (ks : list nat) : Prop :=
  In hs (map snd (rb_state exactd r)) /\ In hc (map snd (rb_cmd exactd r)) /\
  h_trans exactd hs = h_trans exactd hc /\
  side Position (h_jnt exactd hs) = map (fun k => Some (rb_jpos exactd r k)) ks /\
  side Position (h_jnt exactd hc) = map (fun k => Some (rb_jcmd exactd r k)) ks.

(** The four groups of variables. *)
Definition actuator_states (r : robot exactd) : list addr :=
  flat_map (sources exactd ActToJntState) (map snd (rb_state exactd r)).
Definition joint_states (r : robot exactd) : list addr :=
  flat_map (targets exactd ActToJntState) (map snd (rb_state exactd r)).
Definition joint_commands (r : robot exactd) : list addr :=
  flat_map (sources exactd JntToActPosition) (map snd (rb_cmd exactd r)).
Definition actuator_commands (r : robot exactd) : list addr :=
  flat_map (targets exactd JntToActPosition) (map snd (rb_cmd exactd r)).

(** The handles are usable, no variable serves two purposes, every commanded transmission also has its
    state read. *)
Definition well_wired (r : robot exactd) : Prop :=
  (forall h, In h (map snd (rb_state exactd r)) -> usable ActToJntState h) /\
  (forall h, In h (map snd (rb_cmd exactd r)) -> usable JntToActPosition h) /\
  NoDup (joint_states r) /\ NoDup (actuator_commands r) /\
  (forall a, In a (actuator_states r) -> ~ In a (joint_states r ++ joint_commands r ++ actuator_commands r)) /\
  (forall a, In a (joint_states r) -> ~ In a (joint_commands r ++ actuator_commands r)) /\
  (forall a, In a (joint_commands r) -> ~ In a (actuator_commands r)) /\
  (forall hc, In hc (map snd (rb_cmd exactd r)) -> exists hs ks, drives r hs hc ks).

(** The limit handles: one per joint, for every joint that is commanded and no other, and no two joints
    with the same command variable. *)
Definition all_limited {H} (r : robot exactd) (i : lim_iface H) : Prop :=
  NoDup (map (fun p => rb_jcmd exactd r (lh_joint (snd p))) i) /\
  (forall nm h, In (nm, h) i -> exists hs hc ks, drives r hs hc ks /\ In (lh_joint h) ks) /\
  (forall hs hc ks k, drives r hs hc ks -> In k ks -> exists nm h, In (nm, h) i /\ lh_joint h = k).

(** The joint positions that correspond to the actuator positions (or position commands) of a handle, by
    the documented formulas. *)
Definition joint_image (h : handle exactd) (m : mem exactd) (ys : list Q) : Prop :=
  exists xs, map m (addrs (side Position (h_act exactd h))) = map Some xs /\
    joint_formula (h_trans exactd h) Position xs ys.

(** The actuators stand where every joint [k] is inside [zone k]. *)
Definition positions_inside (zone : nat -> option Q -> Prop) (r : robot exactd) (m : mem exactd) : Prop :=
  forall hs hc ks, drives r hs hc ks ->
    exists ys, joint_image hs m ys /\ Forall2 (fun k y => zone k (Some y)) ks ys.
(** The actuators are sent where every joint is inside its zone, and to the commands of the joints. *)
Definition commands_inside (zone : nat -> option Q -> Prop) (r : robot exactd) (m : mem exactd) : Prop :=
  forall hs hc ks, drives r hs hc ks ->
    exists ys, joint_image hc m ys /\
      Forall2 (fun k y => zone k (Some y) /\ same (m (rb_jcmd exactd r k)) (Some y)) ks ys.

(** What the hardware does between two cycles: the actuators move, each joint somewhere between where
    it was and where it is sent; nothing else changes. *)
Definition between (a b x : Q) : Prop := (a <= x <= b)%Q \/ (b <= x <= a)%Q.
Definition no_overshoot (r : robot exactd) (m m' : mem exactd) : Prop :=
  unchanged_outside exactd (actuator_states r) m m' /\
  forall hs hc ks ys yc, drives r hs hc ks -> joint_image hs m ys -> joint_image hc m yc ->
    exists ys', joint_image hs m' ys' /\
      Forall2 (fun p y' => between (fst p) (snd p) y') (combine ys yc) ys'.

(** The controllers: they change joint commands only, to numbers. *)
Definition controllers (r : robot exactd) (m m' : mem exactd) : Prop :=
  unchanged_outside exactd (joint_commands r) m m' /\
  forall a, In a (joint_commands r) -> rational (m' a).

Section Runs.
Context {H : Type} (enf : H -> joint exact -> num exact -> option (H * joint exact)) (rst : H -> H).

(** One cycle with the period [dt]: read, controllers, possibly a reset of the limit handles, write, and
    the hardware moves. *)
Definition cycle (ok : num exact -> Prop) (r : robot exactd) (s s' : lim_iface H * mem exactd) : Prop :=
  exists m1 m2 dt i m3,
    robot_read exactd r (snd s) = Ok m1 /\ controllers r m1 m2 /\ ok dt /\
    (i = fst s \/ i = lim_reset rst (fst s)) /\
    robot_write exactd enf r i m2 dt = Ok (fst s', m3) /\ no_overshoot r m3 (snd s').

(** Any number of cycles. *)
Inductive cycles (ok : num exact -> Prop) (r : robot exactd) (s : lim_iface H * mem exactd) :
    lim_iface H * mem exactd -> Prop :=
  | cycles_none : cycles ok r s s
  | cycles_more s1 s2 : cycles ok r s s1 -> cycle ok r s1 s2 -> cycles ok r s s2.

(** The promise: wherever the loop is, the actuators stand inside the limits, reading succeeds, and
    whatever the controllers ask, writing succeeds, moves no actuator by itself and sends the actuators
    inside the limits. *)
Definition limits_hold (ok : num exact -> Prop) (zone : nat -> option Q -> Prop) (r : robot exactd)
    (s : lim_iface H * mem exactd) : Prop :=
  positions_inside zone r (snd s) /\
  exists m1, robot_read exactd r (snd s) = Ok m1 /\
    forall m2 dt i, controllers r m1 m2 -> ok dt -> i = fst s \/ i = lim_reset rst (fst s) ->
      exists i' m3, robot_write exactd enf r i m2 dt = Ok (i', m3) /\
        positions_inside zone r m3 /\ commands_inside zone r m3.
End Runs.
