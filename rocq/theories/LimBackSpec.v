(** Vocabulary for the statements about joints outside their limits. *)
From Verif Require Export LimSpec.

(** Calls of enforceLimits, one after the other (joint_limits_interface.h:102-120, 188-241): each
    with what the joint shows and the period. *)
Definition enforced {A : arith} (calls : list (joint A * num A)) : list (lim_op A) :=
  map (fun c => Enforce (fst c) (snd c)) calls.
