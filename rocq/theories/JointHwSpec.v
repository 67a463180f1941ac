(** What is claimed about the joint interfaces a transmission loader adds to a robot (JointHwModel.v). *)
From Verif Require Export HwTypes SMap HwModel HwSpec JointHwModel.

(** A provider that is asked for an interface also provides the joint states. *)
Definition asked (us : list (jface * list string)) (j : jface) : Prop := exists u, In u us /\ (fst u = j \/ j = JState).
(** Joint [n] belongs to a transmission that asks for the interface. *)
Definition asked_joint (us : list (jface * list string)) (j : jface) (n : string) : Prop :=
  exists u, In u us /\ (fst u = j \/ j = JState) /\ In n (snd u).
(** A robot without joint interfaces, and a loader that has not been used. *)
Record unused (own : jface -> nat) (m : mgr) (w : world) : Prop := {
  un_types : forall j, ~ has_type (jtype j) m;
  un_own : forall j j', own j = own j' -> j = j';
  un_next : forall j, own j < w_next w;
  un_empty : forall j, ho_map (w_obj w (own j)) = [] }.
