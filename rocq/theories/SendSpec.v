(** What is claimed about writing velocity and effort commands (LoopModel.v, [robot_send]), in terms of the
    variables of the robot, the documented formulas of the transmissions (TransSpec.v) and the limits of
    the joints.  Exact arithmetic. *)
From Coq Require Import List QArith.
From Verif Require Import LimModel LimLaws LimSpec LimExact TransModel TransSpec LoopModel LoopSpec.
Import ListNotations.

(** The kinds of command interfaces and what they carry. *)
Definition carries (k : hkind) (q : quantity) : Prop :=
  k = JntToActPosition /\ q = Position \/ k = JntToActVelocity /\ q = Velocity \/ k = JntToActEffort /\ q = Effort.

(** The command handle [hc] sends the commands of the joints [ks]. *)
Definition sends (r : robot exactd) (q : quantity) (hc : handle exactd) (ks : list nat) : Prop :=
  In hc (map snd (rb_cmd exactd r)) /\ side q (h_jnt exactd hc) = map (fun k => Some (rb_jcmd exactd r k)) ks.

(** The command variables of the joints, and of the actuators. *)
Definition asked (k : hkind) (r : robot exactd) : list addr :=
  flat_map (sources exactd k) (map snd (rb_cmd exactd r)).
Definition sent_to (k : hkind) (r : robot exactd) : list addr :=
  flat_map (targets exactd k) (map snd (rb_cmd exactd r)).

(** The command handles are usable, no actuator command is written twice or read. *)
Definition wired_for (k : hkind) (r : robot exactd) : Prop :=
  (forall h, In h (map snd (rb_cmd exactd r)) -> usable k h) /\
  NoDup (sent_to k r) /\ (forall a, In a (asked k r) -> ~ In a (sent_to k r)).

(** One limit handle for each joint that is commanded and no other; the position and velocity of a joint are
    not somebody's command. *)
Definition each_limited {H} (k : hkind) (q : quantity) (r : robot exactd) (i : lim_iface H) : Prop :=
  NoDup (map (fun p => rb_jcmd exactd r (lh_joint (snd p))) i) /\
  (forall nm h, In (nm, h) i -> (exists hc ks, sends r q hc ks /\ In (lh_joint h) ks) /\
     ~ In (rb_jpos exactd r (lh_joint h)) (asked k r) /\ ~ In (rb_jvel exactd r (lh_joint h)) (asked k r)) /\
  (forall hc ks n, sends r q hc ks -> In n ks -> exists nm h, In (nm, h) i /\ lh_joint h = n).

(** The joint velocities or efforts that correspond to the actuator commands, by the documented formulas,
    are the commands of the joints. *)
Definition delivered (q : quantity) (r : robot exactd) (m : mem exactd) : Prop :=
  forall hc ks, sends r q hc ks ->
    exists xs ys, map m (addrs (side q (h_act exactd hc))) = map Some xs /\
      joint_formula (h_trans exactd hc) q xs ys /\
      Forall2 (fun n y => same (m (rb_jcmd exactd r n)) (Some y)) ks ys.

Section Writes.
Context {H : Type} (enf : H -> joint exact -> num exact -> option (H * joint exact)).
(** What is assumed of a joint [n] as it is seen by its limit handle, and of the period. *)
Context (seen : nat -> joint exact -> Prop) (period : num exact -> Prop).

(** A write may be called: numbers are commanded, the joints are seen as assumed. *)
Definition callable (q : quantity) (r : robot exactd) (m : mem exactd) (dt : num exact) : Prop :=
  period dt /\ forall hc ks n, sends r q hc ks -> In n ks ->
    rational (m (rb_jcmd exactd r n)) /\ seen n (joint_seen exactd r m n).

(** Any number of writes, with whatever happens to the variables between them.  The list has the memory after
    each write, the latest first. *)
Inductive writes (k : hkind) (q : quantity) (r : robot exactd) (i : lim_iface H) : list (mem exactd) -> lim_iface H -> Prop :=
| writes_none : writes k q r i [] i
| writes_more l i1 m dt i2 m' : writes k q r i l i1 -> callable q r m dt ->
    robot_send exactd enf k r i1 m dt = Ok (i2, m') -> writes k q r i (m' :: l) i2.

(** The previous command of a joint, [zero] before the first write. *)
Definition previous (r : robot exactd) (l : list (mem exactd)) (n : nat) : num exact :=
  match l with [] => Some 0%Q | m :: _ => m (rb_jcmd exactd r n) end.

(** The promise: after any number of writes the next one succeeds, changes only commands, delivers the limited
    commands to the actuators, and every joint's command is [good] (given the previous command, the joint as
    it was seen, and the period). *)
Definition commands_limited (k : hkind) (q : quantity) (r : robot exactd) (i : lim_iface H)
    (good : nat -> num exact -> joint exact -> num exact -> num exact -> Prop) : Prop :=
  forall l i1 m dt, writes k q r i l i1 -> callable q r m dt ->
    exists i2 m', robot_send exactd enf k r i1 m dt = Ok (i2, m') /\
      unchanged_outside exactd (asked k r ++ sent_to k r) m m' /\ delivered q r m' /\
      forall hc ks n, sends r q hc ks -> In n ks ->
        good n (previous r l n) (joint_seen exactd r m n) dt (m' (rb_jcmd exactd r n)).
End Writes.
