(** Direct C++ callers of switchController beside the services.

    controller_manager/src/controller_manager.cpp:436-459: switchController executes
    "switch_params_ = SwitchParams()" (440) before it takes controllers_lock_ (459).
    The services cannot overlap (services_lock_, 827), a direct caller can. *)
From Verif Require Import HwTypes Lifecycle CMModel.

(** A history with such callers.  [Op o]: an operation of the manager model (a direct
    caller that gets the lock is an ordinary [Switch]).  [Touch]: another thread
    enters switchController and executes line 440, then blocks on the lock (controller_manager.cpp:436-459). *)
Inductive op2 := Op (o : op) | Touch.

(** controller_manager.cpp:440; SwitchParams() is controller_manager.h:193-200. *)
Definition touch (s : cm) : cm :=
  mkCM (cm_list s) (cm_heap s) (cm_next s) sw_default (cm_start s) (cm_stop s)
       (cm_hwstart s) (cm_hwstop s) (cm_loaders s) (cm_call s).

(** One operation (controller_manager.cpp:66-840). *)
Definition step2 (s : cm) (o : op2) : cm * list event * answer :=
  match o with Op o => step s o | Touch => (touch s, [], ANone) end.

(** State reached, callbacks and hook calls, and the answers to the [Op]s
    (a sequence of the calls of controller_manager.cpp:66-840). *)
Fixpoint run2 (s : cm) (h : list op2) : cm * list event * list answer :=
  match h with
  | [] => (s, [], [])
  | o :: h' =>
      let '(s1, e1, a1) := step2 s o in
      let '(s2, e2, a2) := run2 s1 h' in
      (s2, e1 ++ e2, match o with Op _ => a1 :: a2 | Touch => a2 end)
  end.

(** The same history without the other callers (used to state theorems about controller_manager.cpp:440). *)
Definition without (h : list op2) : list op2 := filter (fun o => match o with Op _ => true | Touch => false end) h.
