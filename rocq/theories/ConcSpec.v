(** Vocabulary for overlapping switchController calls. *)
From Verif Require Import HwTypes Lifecycle CMModel ConcModel.

(** No caller touches the parameters while a request is outstanding. *)
Fixpoint touches_idle (s : cm) (h : list op2) : Prop :=
  match h with
  | [] => True
  | o :: h' => (o = Touch -> sw_do (cm_sw s) = false) /\ touches_idle (fst (fst (step2 s o))) h'
  end.

(** Only control cycles, none of them with reset_controllers. *)
Fixpoint plain_cycles (h : list op2) : Prop :=
  match h with
  | [] => True
  | Op (Cycle _ _ false _) :: h' => plain_cycles h'
  | _ => False
  end.
