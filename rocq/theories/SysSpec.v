(** Specification of a controller manager on a robot, in terms of what its controllers were written to do, what the robot
    provides, and the trace. *)
From Verif Require Import HwTypes Lifecycle SMap ConflictModel CMModel CMSpec HwModel HwSpec CombModel CombSpec SysModel.
Open Scope Z_scope.
Local Open Scope list_scope.

(** State, trace and replies from a new manager on robot [rb]. *)
Definition sys_reach (kd : string -> tkind) (ls : list loader) (rb : robot) (ops : list sysop) : sys := fst (sys_run kd (sys_init ls rb) ops).
Definition sys_trace (kd : string -> tkind) (ls : list loader) (rb : robot) (ops : list sysop) : list sysev := snd (sys_run kd (sys_init ls rb) ops).
Definition sys_reply (kd : string -> tkind) (ls : list loader) (rb : robot) (ops : list sysop) (o : sysop) : answer := snd (sys_step kd (sys_reach kd ls rb ops) o).
Definition sys_emits (kd : string -> tkind) (ls : list loader) (rb : robot) (ops : list sysop) (o : sysop) : list sysev := snd (fst (sys_step kd (sys_reach kd ls rb ops) o)).
Definition sys_idle (kd : string -> tkind) (ls : list loader) (rb : robot) (ops : list sysop) : Prop := cm_call (sy_cm (sys_reach kd ls rb ops)) = Idle.

(** What the manager does and what the parts are told, out of a trace. *)
Definition of_manager (tr : list sysev) : list event := flat_map (fun e => match e with Of x => [x] | _ => [] end) tr.
Definition of_parts (tr : list sysev) : list pcall := flat_map (fun e => match e with OfPart c => [c] | _ => [] end) tr.

(** No caller gives up waiting because ROS shuts down between two lines (see [no_abandoned]). *)
Definition none_abandoned (ops : list sysop) : Prop :=
  Forall (fun o => match o with SPoll _ true false => False | _ => True end) ops.

(** A controller with this request commands resource [n] on a robot with these interfaces: its init asks a claiming interface
    the robot has for it. *)
Definition commands (kd : string -> tkind) (w : world) (m : mgr) (q : request) (n : string) : Prop :=
  match q with
  | Single T b1 b2 => tk_claiming (kd T) = true /\ calls_of b1 b2 None n /\ provides w m T n
  | Multi _ Ts b1 b2 => exists T, In T Ts /\ tk_claiming (kd T) = true /\ calls_of b1 b2 T n /\ provides w m T n
  end.

(** Interfaces that claim are resource managers (hardware_resource_manager.h:79). *)
Definition claiming_managed (kd : string -> tkind) : Prop := forall T, tk_claiming (kd T) = true -> tk_rm (kd T) = true.

(** Controller [i] was initialised with request [q] and reported these claims. *)
Definition initialised (tr : list sysev) (i : nat) (q : request) (claims : list iface_res) : Prop := In (Inited i q (OutOk claims)) tr.

(** The controller [i] would run after the request. *)
Definition will_run (tr : list event) (start stop : list string) (i : nat) : Prop :=
  exists info, In (i, info) (loaded tr) /\ (named start (i, info) = true \/ runs tr i /\ named stop (i, info) = false).

(** [has p] tells which resources part [p] provides. *)
Definition knows (kd : string -> tkind) (w : world) (has : part -> string -> string -> bool) (parts : list part) : Prop :=
  forall p, In p parts -> built kd w (pt_mgr p) /\ forall T r, has p T r = true <-> tk_rm (kd T) = true /\ provides w (pt_mgr p) T r.

(** The last prepareSwitch or doSwitch call that part [id] received. *)
Definition note_hook (id : nat) (last : option pcall) (e : sysev) : option pcall :=
  match e with
  | OfPart (PPrepare j a b x) => if Nat.eqb j id then Some (PPrepare j a b x) else last
  | OfPart (PDo j a b) => if Nat.eqb j id then Some (PDo j a b) else last
  | _ => last
  end.
Definition last_hook (id : nat) (tr : list sysev) : option pcall := fold_left (note_hook id) tr None.

(** The caller has not got its reply during [mid]. *)
Fixpoint sys_no_reply (kd : string -> tkind) (s : sys) (mid : list sysop) : Prop :=
  match mid with
  | [] => True
  | o :: mid' => (snd (sys_step kd s o) = ANone \/ snd (sys_step kd s o) = ABlocked) /\ sys_no_reply kd (fst (fst (sys_step kd s o))) mid'
  end.
Definition sys_waiting (kd : string -> tkind) (ls : list loader) (rb : robot) (ops mid : list sysop) : Prop := sys_no_reply kd (sys_reach kd ls rb ops) mid.
Definition sys_pending (kd : string -> tkind) (ls : list loader) (rb : robot) (ops : list sysop) : Prop :=
  exists wall, sys_reply kd ls rb ops (SPoll wall true true) = ANone.
Definition sys_finished (kd : string -> tkind) (ls : list loader) (rb : robot) (ops : list sysop) (b : bool) : Prop :=
  forall wall ok1 ok2, sys_reply kd ls rb ops (SPoll wall ok1 ok2) = ABool b.
Definition no_sys_cycle (mid : list sysop) : Prop := Forall (fun o => match o with SCycle _ _ _ _ => False | _ => True end) mid.
(** The list reports that the controller called [name] claims resource [r] of interface [T]. *)
Definition reports (l : list cinfo) (name T r : string) : Prop :=
  exists c f, In c l /\ ci_name c = name /\ In f (ci_claims c) /\ ir_iface f = T /\ In r (ir_res f).

(** The robot has what the controller asks for when it is initialised, and its init functions are content.  A resource whose
    absence the controller catches is not needed; optional interfaces are not needed. *)
Definition usable (kd : string -> tkind) (w : world) (m : mgr) (q : request) : Prop :=
  match q with
  | Single T b1 b2 => exposed kd m T /\ b_ret b1 = Some true /\ b_ret b2 = Some true /\
      forall n, In (None, n, false) (b_calls b1 ++ b_calls b2) -> provides w m T n
  | Multi optional Ts b1 b2 => (optional = true \/ forall T, In T Ts -> exposed kd m T) /\ b_ret b1 = Some true /\ b_ret b2 = Some true /\
      forall T n, In (T, n, false) (b_calls b1 ++ b_calls b2) -> In T Ts -> exposed kd m T -> provides w m T n
  end.
(** Handles are asked of resource managers only (resource_manager.h:113: nothing else has getHandle). *)
Definition typed (kd : string -> tkind) (q : request) : Prop :=
  match q with
  | Single T b1 b2 => (exists n c, In (None, n, c) (b_calls b1 ++ b_calls b2)) -> tk_rm (kd T) = true
  | Multi _ _ b1 b2 => forall T n c, In (T, n, c) (b_calls b1 ++ b_calls b2) -> tk_rm (kd T) = true
  end.
(** The loaders of the manager. *)
Definition sys_loaders (ls : list loader) (ops : list sysop) : list loader :=
  ls ++ flat_map (fun o => match o with SRegisterLoader l => [l] | _ => [] end) ops.
