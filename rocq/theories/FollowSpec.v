(** What is claimed about a robot whose actuators follow velocity commands (LoopModel.v, [robot_read] and
    [robot_send]).  Exact arithmetic. *)
From Coq Require Import List QArith.
From Verif Require Import LimModel LimLaws LimSpec LimExact TransModel TransSpec LoopModel LoopSpec SendSpec.
Import ListNotations.

(** The transmission handles [hs] (state) and [hc] (velocity commands) belong to the same transmission, and
    their joints are those numbered [ks]. *)
Definition turns (r : robot exactd) (hs hc : handle exactd) (ks : list nat) : Prop :=
  In hs (map snd (rb_state exactd r)) /\ sends r Velocity hc ks /\
  h_trans exactd hs = h_trans exactd hc /\
  side Position (h_jnt exactd hs) = map (fun k => Some (rb_jpos exactd r k)) ks.

(** The handles are usable, no variable serves two purposes, every commanded transmission also has its
    state read. *)
Definition turning (r : robot exactd) : Prop :=
  let cmd := asked JntToActVelocity r in let act := sent_to JntToActVelocity r in
  wired_for JntToActVelocity r /\
  (forall h, In h (map snd (rb_state exactd r)) -> usable ActToJntState h) /\
  NoDup (joint_states r) /\
  (forall a, In a (actuator_states r) -> ~ In a (joint_states r ++ cmd ++ act)) /\
  (forall a, In a (joint_states r) -> ~ In a (cmd ++ act)) /\
  (forall hc ks, sends r Velocity hc ks -> exists hs, turns r hs hc ks).

(** The actuators stand where every joint [k] is inside [zone k]. *)
Definition stands_inside (zone : nat -> option Q -> Prop) (r : robot exactd) (m : mem exactd) : Prop :=
  forall hs hc ks, turns r hs hc ks ->
    exists ys, joint_image hs m ys /\ Forall2 (fun k y => zone k (Some y)) ks ys.

(** What the hardware does in a period: the actuators of each transmission move with the velocities they are
    sent, for the whole period or a part of it; nothing else changes. *)
Definition moves (r : robot exactd) (dt : num exact) (m m' : mem exactd) : Prop :=
  unchanged_outside exactd (actuator_states r) m m' /\
  forall hs hc ks xs vs d, turns r hs hc ks -> dt = Some d ->
    map m (addrs (side Position (h_act exactd hs))) = map Some xs ->
    map m (addrs (side Velocity (h_act exactd hc))) = map Some vs ->
    exists t xs', (0 <= t <= d)%Q /\ map m' (addrs (side Position (h_act exactd hs))) = map Some xs' /\
      Forall2 (fun p x' => (x' == fst p + snd p * t)%Q) (combine xs vs) xs'.

(** The controllers: they change joint commands only, to numbers. *)
Definition velocities_asked (r : robot exactd) (m m' : mem exactd) : Prop :=
  unchanged_outside exactd (asked JntToActVelocity r) m m' /\
  forall a, In a (asked JntToActVelocity r) -> rational (m' a).

Section Runs.
Context {H : Type} (enf : H -> joint exact -> num exact -> option (H * joint exact)).

(** Any number of cycles: read, controllers, write, and the hardware moves for the period. *)
Inductive turning_cycles (ok : num exact -> Prop) (r : robot exactd) (s : lim_iface H * mem exactd) :
    lim_iface H * mem exactd -> Prop :=
| turning_none : turning_cycles ok r s s
| turning_more i m m1 m2 dt i' m3 m4 : turning_cycles ok r s (i, m) ->
    robot_read exactd r m = Ok m1 -> velocities_asked r m1 m2 -> ok dt ->
    robot_send exactd enf JntToActVelocity r i m2 dt = Ok (i', m3) -> moves r dt m3 m4 ->
    turning_cycles ok r s (i', m4).

(** The promise: wherever the loop is, the joints are inside, reading succeeds, and whatever the controllers
    ask, writing succeeds, moves no actuator by itself, delivers the commands, and the actuators may follow them
    for the period. *)
Definition stays_inside (ok : num exact -> Prop) (zone : nat -> option Q -> Prop) (r : robot exactd)
    (s : lim_iface H * mem exactd) : Prop :=
  stands_inside zone r (snd s) /\
  exists m1, robot_read exactd r (snd s) = Ok m1 /\
    forall m2 dt, velocities_asked r m1 m2 -> ok dt ->
      exists i' m3, robot_send exactd enf JntToActVelocity r (fst s) m2 dt = Ok (i', m3) /\
        stands_inside zone r m3 /\ delivered Velocity r m3 /\
        forall m4, moves r dt m3 m4 -> stands_inside zone r m4.
End Runs.
