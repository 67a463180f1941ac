(** A robot that reads, limits and writes as the documentation of the two packages shows:
    joint_limits_interface/mainpage.dox:94-139 and transmission_interface/mainpage.dox:94-208. *)
From Coq Require Import List String.
From Verif Require Import LimModel TransModel.
Import ListNotations.

Section Robot.
Context (A : darith).

(** The data members of such a robot: transmission_interface/mainpage.dox:179-208 (state and
    command interface of the transmissions, variables), with the variables behind the joint handles
    of joint_limits_interface/mainpage.dox:99-116 [init], joint by joint.  Simplification: one kind of
    command for all joints, as in both examples. *)
Record robot := mkRobot {
  rb_state : smap (handle A);  (* act_to_jnt_state *)
  rb_cmd : smap (handle A);    (* jnt_to_act_pos, or an interface for other commands *)
  rb_jpos : nat -> addr;       (* where the handle of a joint finds its position, *)
  rb_jvel : nat -> addr;       (* its velocity *)
  rb_jcmd : nat -> addr        (* and its command *)
}.

(** What a limit handle sees through its joint handle: joint_state_interface.h:167-168 (getPosition,
    getVelocity), joint_command_interface.h:61 [getCommand]. *)
Definition joint_seen (r : robot) (m : mem A) (k : nat) : joint (base A) :=
  mkJoint (m (rb_jpos r k)) (m (rb_jvel r k)) (m (rb_jcmd r k)).

(** transmission_interface/mainpage.dox:161-168 [read]: reading the actuators is left to the hardware
    (before this function), then the state is propagated to the joints. *)
Definition robot_read (r : robot) (m : mem A) : res (mem A) := propagate_all A ActToJntState (rb_state r) m.

Section Limits.
(** A type of limit handles with its enforceLimits, as in LimModel.v. *)
Context {H : Type} (enf : H -> joint (base A) -> num (base A) -> option (H * joint (base A))).

(** joint_limits_interface.h:555-561 [enforceLimits] on the variables themselves: every handle,
    in map order, reads its joint and stores a command (joint_command_interface.h:60 [setCommand]).
    [None]: an assertion fails. *)
Fixpoint limit_all (r : robot) (i : lim_iface H) (m : mem A) (dt : num (base A)) : option (lim_iface H * mem A) :=
  match i with
  | [] => Some ([], m)
  | (n, h) :: i' =>
      match enf (lh_state h) (joint_seen r m (lh_joint h)) dt with
      | None => None
      | Some (s, j) =>
          match limit_all r i' (upd A m (rb_jcmd r (lh_joint h)) (j_cmd j)) dt with
          | None => None
          | Some (i'', m') => Some ((n, mkLim s (lh_joint h)) :: i'', m')
          end
      end
  end.

(** The same [write] with the interface for position, velocity or effort commands
    (transmission_interface.h:432-438, [propagate] at 324, 343 and 362); the limit handles are then those of the
    corresponding joint_limits_interface.h:597-607. *)
Definition robot_send (k : hkind) (r : robot) (i : lim_iface H) (m : mem A) (dt : num (base A)) : res (lim_iface H * mem A) :=
  match limit_all r i m dt with
  | None => Assertion
  | Some (i', m1) => m2 <- propagate_all A k (rb_cmd r) m1 ;; Ok (i', m2)
  end.

(** joint_limits_interface/mainpage.dox:125-134 [write], with transmission_interface/mainpage.dox:170-177
    [write] in the place of "Propagate joint commands to actuators". *)
Definition robot_write : robot -> lim_iface H -> mem A -> num (base A) -> res (lim_iface H * mem A) :=
  robot_send JntToActPosition.
End Limits.
End Robot.
