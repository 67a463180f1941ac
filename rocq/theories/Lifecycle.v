(** Model of controller_interface/include/controller_interface/controller_base.h:
    the life-cycle state of one controller instance and the requests that change
    it.  Controller instances are identified by a number standing for the address
    held by [std::shared_ptr<ControllerBase>]; the states of all instances form a
    heap. *)
From Verif Require Import HwTypes.

(** controller_base.h:243-254 [enum class ControllerState]. *)
Inductive cstate := CONSTRUCTED | INITIALIZED | RUNNING | STOPPED | WAITING | ABORTED.

(** The virtual callbacks of a controller: controller_base.h:66 (starting),
    :73 (update), :80 (stopping), :87 (waiting), :94 (aborting). Their bodies are
    user code; the model records only that they are invoked and with which time
    (and period, for update).  Simplification: the bodies cannot change the
    manager's own data (they have no access to it through the API used here). *)
Inductive callback := CbStarting | CbUpdate (period : Z) | CbStopping | CbWaiting | CbAborting.

(** Observable events.  [EvCb i c t]: callback [c] invoked on instance [i] with
    time [t].  [EvLoaded i info]: instance [i] was constructed, initialised and
    entered in the list of loaded controllers with description [info].
    [EvDestroyed i]: the last reference to instance [i] was dropped.
    [EvPrepare], [EvDo]: calls of RobotHW::prepareSwitch / doSwitch.
    [EvReload], [EvCreate]: ControllerLoaderInterface::reload / createInstance
    called on the k-th registered loader
    (controller_base.h:66-94; controller_manager.cpp:120, 292, 347, 360, 428, 597, 684). *)
Inductive event :=
| EvCb (i : nat) (c : callback) (t : Z)
| EvLoaded (i : nat) (info : cinfo)
| EvDestroyed (i : nat)
| EvPrepare (start stop : list cinfo) (ok : bool)
| EvDo (start stop : list cinfo)
| EvReload (k : nat)
| EvCreate (k : nat).

(** controller_base.h:254 [state_] of every instance. *)
Definition heap := nat -> cstate.
(** Assignment to [state_] of one instance (controller_base.h:152, 169, 186, 203). *)
Definition upd (h : heap) (i : nat) (s : cstate) : heap :=
  fun j => if Nat.eqb j i then s else h j.

(** controller_base.h:99-134 [isInitialized] ... [isAborted]. *)
Definition is_initialized (h : heap) (i : nat) : bool :=
  match h i with INITIALIZED => true | _ => false end.
(** controller_base.h:107-110 [isRunning]. *)
Definition is_running (h : heap) (i : nat) : bool :=
  match h i with RUNNING => true | _ => false end.
(** controller_base.h:115-118 [isStopped]. *)
Definition is_stopped (h : heap) (i : nat) : bool :=
  match h i with STOPPED => true | _ => false end.
(** controller_base.h:123-126 [isWaiting]. *)
Definition is_waiting (h : heap) (i : nat) : bool :=
  match h i with WAITING => true | _ => false end.
(** controller_base.h:131-134 [isAborted]. *)
Definition is_aborted (h : heap) (i : nat) : bool :=
  match h i with ABORTED => true | _ => false end.

(** controller_base.h:137-143 [updateRequest]. *)
Definition update_request (t p : Z) (h : heap) (i : nat) : heap * list event :=
  match h i with
  | RUNNING => (h, [EvCb i (CbUpdate p) t])
  | _ => (h, [])
  end.

(** controller_base.h:146-160 [startRequest] (the boolean result is ignored by
    every caller in the manager and is not modelled). *)
Definition start_request (t : Z) (h : heap) (i : nat) : heap * list event :=
  match h i with
  | CONSTRUCTED => (h, [])
  | _ => (upd h i RUNNING, [EvCb i CbStarting t])
  end.

(** controller_base.h:163-177 [stopRequest]. *)
Definition stop_request (t : Z) (h : heap) (i : nat) : heap * list event :=
  match h i with
  | CONSTRUCTED => (h, [])
  | _ => (upd h i STOPPED, [EvCb i CbStopping t])
  end.

(** controller_base.h:180-194 [waitRequest]. *)
Definition wait_request (t : Z) (h : heap) (i : nat) : heap * list event :=
  match h i with
  | CONSTRUCTED => (h, [])
  | _ => (upd h i WAITING, [EvCb i CbWaiting t])
  end.

(** controller_base.h:197-211 [abortRequest]. *)
Definition abort_request (t : Z) (h : heap) (i : nat) : heap * list event :=
  match h i with
  | CONSTRUCTED => (h, [])
  | _ => (upd h i ABORTED, [EvCb i CbAborting t])
  end.

(** A range-based [for] loop whose body changes the heap and emits events
    (controller_manager.cpp:71-78, 82-83, 141-147, 155-158, 167-170, 177-180). *)
Fixpoint for_each {A : Type} (f : heap -> A -> heap * list event) (h : heap) (l : list A)
  : heap * list event :=
  match l with
  | [] => (h, [])
  | a :: l' =>
      let (h1, e1) := f h a in
      let (h2, e2) := for_each f h1 l' in
      (h2, e1 ++ e2)
  end.
