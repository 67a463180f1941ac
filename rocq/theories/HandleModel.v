(** Handles of hardware_interface: objects holding pointers into the storage of the robot hardware class.

    Storage is a map from addresses to values; a pointer is [None] (nullptr) or the address of a live object
    (dangling pointers are not modelled).  Values are only moved, so their type is left open. *)
From Coq Require Import List String Bool ZArith.
Import ListNotations.
Local Open Scope string_scope.

(** The address of an object of type double or JointCommandModes (joint_state_interface.h:216-220, joint_mode_interface.h:110). *)
Definition addr := nat.
(** A pointer member, initially nullptr (joint_state_interface.h:216-220). *)
Definition ptr := option addr.
(** The storage the pointers of joint_state_interface.h:216-220 point into; it belongs to the robot hardware class. *)
Definition mem (V : Type) := addr -> V.

(** Outcome of a call: a value, a C++ exception, or a failed assert (with NDEBUG the same call dereferences
    nullptr, which is undefined) (joint_state_interface.h:59-70 (exceptions), 167-169 (asserts)). *)
Inductive res (A : Type) := Ret (a : A) | Raise (msg : string) | Assert.
Arguments Ret {A}. Arguments Raise {A}. Arguments Assert {A}.

(** "assert(p_); return *p_;" as in joint_state_interface.h:167-169 *)
Definition deref {V} (m : mem V) (p : ptr) : res V := match p with Some a => Ret (m a) | None => Assert end.
(** "assert(p_); *p_ = v;" as in joint_command_interface.h:60 *)
Definition store {V} (m : mem V) (p : ptr) (v : V) : res (mem V) :=
  match p with Some a => Ret (fun b => if Nat.eqb b a then v else m b) | None => Assert end.
(** sequencing of C++ statements (for example posvel_command_interface.h:65-69). *)
Definition bind {A B} (r : res A) (f : A -> res B) : res B :=
  match r with Ret a => f a | Raise s => Raise s | Assert => Assert end.

(** "if (!p) throw HardwareInterfaceException("Cannot create handle '" + name + "'. " + what)" as in
    joint_state_interface.h:59-62 *)
Definition check {A} (name : string) (p : ptr) (what : string) (k : res A) : res A :=
  match p with None => Raise ("Cannot create handle '" ++ name ++ "'. " ++ what) | Some _ => k end.

(* ---------------------------------------------------------------- state handles *)

(** JointStateHandle and ActuatorStateHandle differ in the texts of two exceptions only
    (joint_state_interface.h:171-209, actuator_state_interface.h:172-210). *)
Inductive owner := Joint | Actuator.

(** joint_state_interface.h:215-220, actuator_state_interface.h:216-221 *)
Record shandle := mkSH { sh_name : string; sh_pos : ptr; sh_vel : ptr; sh_eff : ptr; sh_abs : ptr; sh_tq : ptr }.

(** joint_state_interface.h:48, actuator_state_interface.h:48: the default constructor *)
Definition sh_default : shandle := mkSH "" None None None None None.

(** joint_state_interface.h:56-71, actuator_state_interface.h:56-71 *)
Definition sh_make (name : string) (pos vel eff : ptr) : res shandle :=
  check name pos "Position data pointer is null." (
  check name vel "Velocity data pointer is null." (
  check name eff "Effort data pointer is null." (
  Ret (mkSH name pos vel eff None None)))).

(** joint_state_interface.h:81-105, actuator_state_interface.h:81-106 *)
Definition sh_make_both (name : string) (pos vel eff abs tq : ptr) : res shandle :=
  check name pos "Position data pointer is null." (
  check name vel "Velocity data pointer is null." (
  check name eff "Effort data pointer is null." (
  check name abs "Absolute data pointer is null." (
  check name tq "Torque sensor data pointer is null." (
  Ret (mkSH name pos vel eff abs tq)))))).

(** joint_state_interface.h:114-134, actuator_state_interface.h:115-135 *)
Definition sh_make_abs (name : string) (pos vel eff abs : ptr) : res shandle :=
  check name pos "Position data pointer is null." (
  check name vel "Velocity data pointer is null." (
  check name eff "Effort data pointer is null." (
  check name abs "Absolute data pointer is null." (
  Ret (mkSH name pos vel eff abs None))))).

(** joint_state_interface.h:145-164, actuator_state_interface.h:146-165; the extra bool argument that selects this
    overload is not used by the code and left out *)
Definition sh_make_tq (name : string) (pos vel eff tq : ptr) : res shandle :=
  check name pos "Position data pointer is null." (
  check name vel "Velocity data pointer is null." (
  check name eff "Effort data pointer is null." (
  check name tq "Torque sensor data pointer is null." (
  Ret (mkSH name pos vel eff None tq))))).

(** joint_state_interface.h:167-169, actuator_state_interface.h:168-170 *)
Definition get_position {V} (m : mem V) (h : shandle) : res V := deref m (sh_pos h).
(** joint_state_interface.h:168, actuator_state_interface.h:169 [getVelocity]. *)
Definition get_velocity {V} (m : mem V) (h : shandle) : res V := deref m (sh_vel h).
(** joint_state_interface.h:169, actuator_state_interface.h:170 [getEffort]. *)
Definition get_effort {V} (m : mem V) (h : shandle) : res V := deref m (sh_eff h).

(** joint_state_interface.h:211-212, actuator_state_interface.h:212-213 *)
Definition has_absolute (h : shandle) : bool := match sh_abs h with Some _ => true | None => false end.
(** joint_state_interface.h:212, actuator_state_interface.h:213 [hasTorqueSensor]. *)
Definition has_torque (h : shandle) : bool := match sh_tq h with Some _ => true | None => false end.

(** joint_state_interface.h:171-178, actuator_state_interface.h:172-179 *)
Definition get_absolute {V} (o : owner) (m : mem V) (h : shandle) : res V :=
  if has_absolute h then deref m (sh_abs h) else
  Raise (match o with Joint => "Joint state handle does not contain absolute encoder position information"
                    | Actuator => "Actuator does not support absolute encoders" end).
(** joint_state_interface.h:180-187, actuator_state_interface.h:181-188 *)
Definition get_torque {V} (o : owner) (m : mem V) (h : shandle) : res V :=
  if has_torque h then deref m (sh_tq h) else
  Raise (match o with Joint => "Joint state handle does not contain torque sensor information"
                    | Actuator => "Actuator does not support torque sensors" end).

(** joint_state_interface.h:189-191, actuator_state_interface.h:190-192 *)
Definition get_position_ptr (h : shandle) : ptr := sh_pos h.
(** joint_state_interface.h:190, actuator_state_interface.h:191 [getVelocityPtr]. *)
Definition get_velocity_ptr (h : shandle) : ptr := sh_vel h.
(** joint_state_interface.h:191, actuator_state_interface.h:192 [getEffortPtr]. *)
Definition get_effort_ptr (h : shandle) : ptr := sh_eff h.
(** joint_state_interface.h:193-200, actuator_state_interface.h:194-201 *)
Definition get_absolute_ptr (o : owner) (h : shandle) : res ptr :=
  if has_absolute h then Ret (sh_abs h) else
  Raise (match o with Joint => "Joint state handle does not contain absolute position sensor information"
                    | Actuator => "Actuator does not support absolute encoders" end).
(** joint_state_interface.h:202-209, actuator_state_interface.h:203-210 *)
Definition get_torque_ptr (o : owner) (h : shandle) : res ptr :=
  if has_torque h then Ret (sh_tq h) else
  Raise (match o with Joint => "Joint state handle does not contain torque sensor information"
                    | Actuator => "Actuator does not support torque sensors" end).

(* ---------------------------------------------------------------- command handles *)

(** joint_command_interface.h:64-65, actuator_command_interface.h:63-64: JointHandle and ActuatorHandle *)
Record chandle := mkCH { ch_state : shandle; ch_cmd : ptr }.
(** joint_command_interface.h:51-58, actuator_command_interface.h:49-56 *)
Definition ch_make (js : shandle) (cmd : ptr) : res chandle :=
  check (sh_name js) cmd "Command data pointer is null." (Ret (mkCH js cmd)).
(** joint_command_interface.h:60, actuator_command_interface.h:58 *)
Definition set_command {V} (m : mem V) (h : chandle) (v : V) : res (mem V) := store m (ch_cmd h) v.
(** joint_command_interface.h:61, actuator_command_interface.h:59 *)
Definition get_command {V} (m : mem V) (h : chandle) : res V := deref m (ch_cmd h).
(** joint_command_interface.h:62 asserts, actuator_command_interface.h:61 does not *)
Definition get_command_ptr (o : owner) (h : chandle) : res ptr :=
  match o, ch_cmd h with Joint, None => Assert | _, p => Ret p end.

(** posvel_command_interface.h:77-79 *)
Record pvhandle := mkPV { pv_state : shandle; pv_pos : ptr; pv_vel : ptr }.
(** posvel_command_interface.h:52-63 *)
Definition pv_make (js : shandle) (p v : ptr) : res pvhandle :=
  check (sh_name js) p "Command position pointer is null." (
  check (sh_name js) v "Command velocity  pointer is null." (
  Ret (mkPV js p v))).
(** posvel_command_interface.h:71-72 *)
Definition set_cmd_pos {V} (m : mem V) (h : pvhandle) (x : V) : res (mem V) := store m (pv_pos h) x.
(** posvel_command_interface.h:72 [setCommandVelocity]. *)
Definition set_cmd_vel {V} (m : mem V) (h : pvhandle) (x : V) : res (mem V) := store m (pv_vel h) x.
(** posvel_command_interface.h:74-75 *)
Definition get_cmd_pos {V} (m : mem V) (h : pvhandle) : res V := deref m (pv_pos h).
(** posvel_command_interface.h:75 [getCommandVelocity]. *)
Definition get_cmd_vel {V} (m : mem V) (h : pvhandle) : res V := deref m (pv_vel h).
(** posvel_command_interface.h:65-69 *)
Definition pv_set {V} (m : mem V) (h : pvhandle) (p v : V) : res (mem V) :=
  bind (set_cmd_pos m h p) (fun m => set_cmd_vel m h v).

(** posvelacc_command_interface.h:72-73 *)
Record pvahandle := mkPVA { pva_base : pvhandle; pva_acc : ptr }.
(** posvelacc_command_interface.h:53-60 *)
Definition pva_make (js : shandle) (p v a : ptr) : res pvahandle :=
  bind (pv_make js p v) (fun b =>
  check (sh_name js) a "Command acceleration data pointer is null." (Ret (mkPVA b a))).
(** posvelacc_command_interface.h:69-70 *)
Definition set_cmd_acc {V} (m : mem V) (h : pvahandle) (x : V) : res (mem V) := store m (pva_acc h) x.
(** posvelacc_command_interface.h:70 [getCommandAcceleration]. *)
Definition get_cmd_acc {V} (m : mem V) (h : pvahandle) : res V := deref m (pva_acc h).
(** posvelacc_command_interface.h:62-67 *)
Definition pva_set {V} (m : mem V) (h : pvahandle) (p v a : V) : res (mem V) :=
  bind (set_cmd_pos m (pva_base h) p) (fun m =>
  bind (set_cmd_vel m (pva_base h) v) (fun m => set_cmd_acc m h a)).

(** position_velocity_torque_gains_command_interface.h:92-95 *)
Record pvthandle := mkPVT { pvt_base : pvhandle; pvt_eff : ptr; pvt_kp : ptr; pvt_kd : ptr }.
(** position_velocity_torque_gains_command_interface.h:55-72 *)
Definition pvt_make (js : shandle) (p v e kp kd : ptr) : res pvthandle :=
  bind (pv_make js p v) (fun b =>
  check (sh_name js) e "Command effort data pointer is null." (
  check (sh_name js) kp "Command position gain data pointer is null." (
  check (sh_name js) kd "Command derivative gain data pointer is null." (
  Ret (mkPVT b e kp kd))))).
(** position_velocity_torque_gains_command_interface.h:83-90 *)
Definition set_cmd_eff {V} (m : mem V) (h : pvthandle) (x : V) : res (mem V) := store m (pvt_eff h) x.
(** position_velocity_torque_gains_command_interface.h:84 [getCommandEffort]. *)
Definition get_cmd_eff {V} (m : mem V) (h : pvthandle) : res V := deref m (pvt_eff h).
(** position_velocity_torque_gains_command_interface.h:86 [setCommandKp]. *)
Definition set_cmd_kp {V} (m : mem V) (h : pvthandle) (x : V) : res (mem V) := store m (pvt_kp h) x.
(** position_velocity_torque_gains_command_interface.h:87 [getCommandKp]. *)
Definition get_cmd_kp {V} (m : mem V) (h : pvthandle) : res V := deref m (pvt_kp h).
(** position_velocity_torque_gains_command_interface.h:89 [setCommandKd]. *)
Definition set_cmd_kd {V} (m : mem V) (h : pvthandle) (x : V) : res (mem V) := store m (pvt_kd h) x.
(** position_velocity_torque_gains_command_interface.h:90 [getCommandKd]. *)
Definition get_cmd_kd {V} (m : mem V) (h : pvthandle) : res V := deref m (pvt_kd h).
(** position_velocity_torque_gains_command_interface.h:74-81 *)
Definition pvt_set {V} (m : mem V) (h : pvthandle) (p v e kp kd : V) : res (mem V) :=
  bind (set_cmd_pos m (pvt_base h) p) (fun m =>
  bind (set_cmd_vel m (pvt_base h) v) (fun m =>
  bind (set_cmd_eff m h e) (fun m =>
  bind (set_cmd_kp m h kp) (fun m => set_cmd_kd m h kd)))).

(* ---------------------------------------------------------------- joint modes *)

(** joint_mode_interface.h:49-59; [Other z]: any other value of the underlying type, which a static_cast can
    produce *)
Inductive jmode := BEGIN | MODE_POSITION | MODE_VELOCITY | MODE_EFFORT | NOMODE | EMERGENCY_STOP | SWITCHING | ERROR
                 | Other (z : Z).
(** joint_mode_interface.h:110-111 *)
Record mhandle := mkMH { mh_name : string; mh_mode : ptr }.
(** joint_mode_interface.h:68-76; this message does not name the handle *)
Definition mh_make (name : string) (mode : ptr) : res mhandle :=
  match mode with None => Raise "Cannot create mode interface. Mode data pointer is null." | _ => Ret (mkMH name mode) end.
(** joint_mode_interface.h:80-81 *)
Definition set_mode (m : mem jmode) (h : mhandle) (x : jmode) : res (mem jmode) := store m (mh_mode h) x.
(** joint_mode_interface.h:81 [getMode]. *)
Definition get_mode (m : mem jmode) (h : mhandle) : res jmode := deref m (mh_mode h).
(** joint_mode_interface.h:85-107 *)
Definition mode_name (x : jmode) : string :=
  match x with
  | BEGIN => "not_operational"
  | MODE_POSITION => "position"
  | MODE_VELOCITY => "velocity"
  | MODE_EFFORT => "effort"
  | NOMODE => "other"
  | EMERGENCY_STOP => "emergency_stop"
  | SWITCHING => "switching"
  | ERROR => "error"
  | Other _ => "unknown"
  end.

(* ---------------------------------------------------------------- sensors *)

(** force_torque_sensor_interface.h:68-71 *)
Record fthandle := mkFT { ft_name : string; ft_frame : string; ft_force : ptr; ft_torque : ptr }.
(** force_torque_sensor_interface.h:52-60: no pointer is checked *)
Definition ft_make (name frame : string) (force torque : ptr) : res fthandle := Ret (mkFT name frame force torque).

(** imu_sensor_interface.h:103-111 and, field for field, the struct Data 47-60 *)
Record imuhandle := mkImu { imu_name : string; imu_frame : string; imu_ori : ptr; imu_oricov : ptr; imu_ang : ptr;
                            imu_angcov : ptr; imu_lin : ptr; imu_lincov : ptr }.
(** imu_sensor_interface.h:73-91: no pointer is checked *)
Definition imu_make (name frame : string) (ori oricov ang angcov lin lincov : ptr) : res imuhandle :=
  Ret (mkImu name frame ori oricov ang angcov lin lincov).
(** imu_sensor_interface.h:62-71 *)
Definition imu_of_data (d : imuhandle) : res imuhandle :=
  Ret (mkImu (imu_name d) (imu_frame d) (imu_ori d) (imu_oricov d) (imu_ang d) (imu_angcov d) (imu_lin d) (imu_lincov d)).

(* ---------------------------------------------------------------- programs using handles *)

(** A handle variable of any of the classes above that hold values of type double
    (joint_state_interface.h:45, actuator_state_interface.h:45, joint_command_interface.h:42, actuator_command_interface.h:40, posvel_command_interface.h:42, posvelacc_command_interface.h:42, position_velocity_torque_gains_command_interface.h:42). *)
Inductive hvar :=
| VState (o : owner) (h : shandle)
| VCmd (o : owner) (h : chandle)
| VPosVel (h : pvhandle)
| VPosVelAcc (h : pvahandle)
| VPvt (h : pvthandle).

(** The JointStateHandle part of a handle: the state getters are inherited (joint_command_interface.h:42,
    posvel_command_interface.h:42, posvelacc_command_interface.h:42,
    position_velocity_torque_gains_command_interface.h:42). *)
Definition state_of (x : hvar) : shandle :=
  match x with
  | VState _ h => h
  | VCmd _ h => ch_state h
  | VPosVel h => pv_state h
  | VPosVelAcc h => pv_state (pva_base h)
  | VPvt h => pv_state (pvt_base h)
  end.
(** The class whose exception texts apply (joint_state_interface.h:171-209, actuator_state_interface.h:172-210). *)
Definition owner_of (x : hvar) : owner := match x with VState o _ | VCmd o _ => o | _ => Joint end.
(** The PosVelJointHandle part, for the inherited setters (posvelacc_command_interface.h:42,
    position_velocity_torque_gains_command_interface.h:42). *)
Definition posvel_of (x : hvar) : option pvhandle :=
  match x with VPosVel h => Some h | VPosVelAcc h => Some (pva_base h) | VPvt h => Some (pvt_base h) | _ => None end.

(** Statements of a program.  Handles are numbered in the order of their construction; the arguments [js] are numbers
    of handles whose state part is copied.  [Write]: the hardware class or anyone else stores a value directly
    (user programs: calls of the public members of joint_state_interface.h:48-212 and of the other handle classes above). *)
Inductive stmt (V : Type) :=
| NewDefault (o : owner)
| NewState (o : owner) (name : string) (pos vel eff : ptr)
| NewStateBoth (o : owner) (name : string) (pos vel eff abs tq : ptr)
| NewStateAbs (o : owner) (name : string) (pos vel eff abs : ptr)
| NewStateTq (o : owner) (name : string) (pos vel eff tq : ptr)
| NewCmd (o : owner) (js : nat) (cmd : ptr)
| NewPosVel (js : nat) (p v : ptr)
| NewPosVelAcc (js : nat) (p v a : ptr)
| NewPvt (js : nat) (p v e kp kd : ptr)
| Write (a : addr) (x : V)
| SetCmd (h : nat) (x : V)
| SetPos (h : nat) (x : V) | SetVel (h : nat) (x : V) | SetPosVel (h : nat) (p v : V)
| SetAcc (h : nat) (x : V) | SetPosVelAcc (h : nat) (p v a : V)
| SetEff (h : nat) (x : V) | SetKp (h : nat) (x : V) | SetKd (h : nat) (x : V)
| SetPvt (h : nat) (p v e kp kd : V)
| GetPos (h : nat) | GetVel (h : nat) | GetEff (h : nat) | GetAbs (h : nat) | GetTq (h : nat)
| GetCmd (h : nat) | GetCmdPos (h : nat) | GetCmdVel (h : nat) | GetCmdAcc (h : nat)
| GetCmdEff (h : nat) | GetCmdKp (h : nat) | GetCmdKd (h : nat).
Arguments NewDefault {V}. Arguments NewState {V}. Arguments NewStateBoth {V}. Arguments NewStateAbs {V}.
Arguments NewStateTq {V}. Arguments NewCmd {V}. Arguments NewPosVel {V}. Arguments NewPosVelAcc {V}. Arguments NewPvt {V}.
Arguments Write {V}. Arguments SetCmd {V}. Arguments SetPos {V}. Arguments SetVel {V}. Arguments SetPosVel {V}.
Arguments SetAcc {V}. Arguments SetPosVelAcc {V}. Arguments SetEff {V}. Arguments SetKp {V}. Arguments SetKd {V}.
Arguments SetPvt {V}. Arguments GetPos {V}. Arguments GetVel {V}. Arguments GetEff {V}. Arguments GetAbs {V}.
Arguments GetTq {V}. Arguments GetCmd {V}. Arguments GetCmdPos {V}. Arguments GetCmdVel {V}. Arguments GetCmdAcc {V}.
Arguments GetCmdEff {V}. Arguments GetCmdKp {V}. Arguments GetCmdKd {V}.

(** Program state: the handle variables in order of construction, and the storage
    (user programs: not code of the repository, the members are those of joint_state_interface.h:215-220 and so on). *)
Record pst (V : Type) := mkP { p_vars : list hvar; p_mem : mem V }.
Arguments mkP {V}. Arguments p_vars {V}. Arguments p_mem {V}.

(** What a statement shows to the program: nothing, a value, an exception it can catch, a failed assert, or it is not a
    C++ program at all (the variable does not exist or its class has no such member)
    (user programs; the results are those of joint_state_interface.h:48-212 and of the other handle classes). *)
Inductive shown (V : Type) := Done | Value (v : V) | Thrown (msg : string) | Aborted | IllFormed.
Arguments Done {V}. Arguments Value {V}. Arguments Thrown {V}. Arguments Aborted {V}. Arguments IllFormed {V}.

Section Exec.
  Context {V : Type}.
  Implicit Types (s : pst V).

  (** a declaration: the variable exists iff its constructor did not throw (for example joint_state_interface.h:56-71). *)
  Definition declare {A} s (r : res A) (k : A -> hvar) : pst V * shown V :=
    match r with
    | Ret h => (mkP (p_vars s ++ [k h])%list (p_mem s), Done)
    | Raise msg => (s, Thrown msg)
    | Assert => (s, Aborted)
    end.
  (** a call of a setter (for example joint_command_interface.h:60). *)
  Definition update s (r : res (mem V)) : pst V * shown V :=
    match r with
    | Ret m => (mkP (p_vars s) m, Done)
    | Raise msg => (s, Thrown msg)
    | Assert => (s, Aborted)
    end.
  (** a call of a getter (for example joint_state_interface.h:167-169). *)
  Definition query s (r : res V) : pst V * shown V :=
    (s, match r with Ret v => Value v | Raise msg => Thrown msg | Assert => Aborted end).

  (** A member function is called on variable [h] (joint_state_interface.h:48-212 and so on). *)
  Definition with_var s (h : nat) (k : hvar -> pst V * shown V) : pst V * shown V :=
    match nth_error (p_vars s) h with Some x => k x | None => (s, IllFormed) end.
  (** the argument "const JointStateHandle&" / "const ActuatorStateHandle&" of a constructor
      (joint_command_interface.h:51, actuator_command_interface.h:49) *)
  Definition with_js s (o : owner) (h : nat) (k : shandle -> pst V * shown V) : pst V * shown V :=
    with_var s h (fun x => match o, owner_of x with
                           | Joint, Joint | Actuator, Actuator => k (state_of x)
                           | _, _ => (s, IllFormed) end).
  (** The same for the members of PosVelJointHandle (posvel_command_interface.h:65-75). *)
  Definition with_pv s (h : nat) (k : pvhandle -> pst V * shown V) : pst V * shown V :=
    with_var s h (fun x => match posvel_of x with Some b => k b | None => (s, IllFormed) end).

  (** One statement; the called member functions are those above.  setCommand(double) exists in JointHandle and
      ActuatorHandle only, setCommand(double, double) is hidden in the classes derived from PosVelJointHandle but
      callable through a reference to the base, which is what [SetPosVel] stands for
      (joint_command_interface.h:60, actuator_command_interface.h:58, posvel_command_interface.h:65-69, posvelacc_command_interface.h:62). *)
  Definition exec s (c : stmt V) : pst V * shown V :=
    match c with
    | NewDefault o => declare s (Ret sh_default) (VState o)
    | NewState o n p v e => declare s (sh_make n p v e) (VState o)
    | NewStateBoth o n p v e a t => declare s (sh_make_both n p v e a t) (VState o)
    | NewStateAbs o n p v e a => declare s (sh_make_abs n p v e a) (VState o)
    | NewStateTq o n p v e t => declare s (sh_make_tq n p v e t) (VState o)
    | NewCmd o js c => with_js s o js (fun x => declare s (ch_make x c) (VCmd o))
    | NewPosVel js p v => with_js s Joint js (fun x => declare s (pv_make x p v) VPosVel)
    | NewPosVelAcc js p v a => with_js s Joint js (fun x => declare s (pva_make x p v a) VPosVelAcc)
    | NewPvt js p v e kp kd => with_js s Joint js (fun x => declare s (pvt_make x p v e kp kd) VPvt)
    | Write a x => update s (store (p_mem s) (Some a) x)
    | SetCmd h x => with_var s h (fun y => match y with VCmd _ c => update s (set_command (p_mem s) c x)
                                                      | _ => (s, IllFormed) end)
    | SetPos h x => with_pv s h (fun b => update s (set_cmd_pos (p_mem s) b x))
    | SetVel h x => with_pv s h (fun b => update s (set_cmd_vel (p_mem s) b x))
    | SetPosVel h p v => with_pv s h (fun b => update s (pv_set (p_mem s) b p v))
    | SetAcc h x => with_var s h (fun y => match y with VPosVelAcc c => update s (set_cmd_acc (p_mem s) c x)
                                                      | _ => (s, IllFormed) end)
    | SetPosVelAcc h p v a => with_var s h (fun y => match y with VPosVelAcc c => update s (pva_set (p_mem s) c p v a)
                                                                | _ => (s, IllFormed) end)
    | SetEff h x => with_var s h (fun y => match y with VPvt c => update s (set_cmd_eff (p_mem s) c x) | _ => (s, IllFormed) end)
    | SetKp h x => with_var s h (fun y => match y with VPvt c => update s (set_cmd_kp (p_mem s) c x) | _ => (s, IllFormed) end)
    | SetKd h x => with_var s h (fun y => match y with VPvt c => update s (set_cmd_kd (p_mem s) c x) | _ => (s, IllFormed) end)
    | SetPvt h p v e kp kd => with_var s h (fun y => match y with VPvt c => update s (pvt_set (p_mem s) c p v e kp kd)
                                                                | _ => (s, IllFormed) end)
    | GetPos h => with_var s h (fun x => query s (get_position (p_mem s) (state_of x)))
    | GetVel h => with_var s h (fun x => query s (get_velocity (p_mem s) (state_of x)))
    | GetEff h => with_var s h (fun x => query s (get_effort (p_mem s) (state_of x)))
    | GetAbs h => with_var s h (fun x => query s (get_absolute (owner_of x) (p_mem s) (state_of x)))
    | GetTq h => with_var s h (fun x => query s (get_torque (owner_of x) (p_mem s) (state_of x)))
    | GetCmd h => with_var s h (fun y => match y with VCmd _ c => query s (get_command (p_mem s) c) | _ => (s, IllFormed) end)
    | GetCmdPos h => with_pv s h (fun b => query s (get_cmd_pos (p_mem s) b))
    | GetCmdVel h => with_pv s h (fun b => query s (get_cmd_vel (p_mem s) b))
    | GetCmdAcc h => with_var s h (fun y => match y with VPosVelAcc c => query s (get_cmd_acc (p_mem s) c) | _ => (s, IllFormed) end)
    | GetCmdEff h => with_var s h (fun y => match y with VPvt c => query s (get_cmd_eff (p_mem s) c) | _ => (s, IllFormed) end)
    | GetCmdKp h => with_var s h (fun y => match y with VPvt c => query s (get_cmd_kp (p_mem s) c) | _ => (s, IllFormed) end)
    | GetCmdKd h => with_var s h (fun y => match y with VPvt c => query s (get_cmd_kd (p_mem s) c) | _ => (s, IllFormed) end)
    end.

  (** A whole program: exceptions are caught, a failed assert ends the program
      (user programs over joint_state_interface.h:48-212 and the other handle classes). *)
  Fixpoint exec_all s (cs : list (stmt V)) : pst V * list (shown V) :=
    match cs with
    | [] => (s, [])
    | c :: cs =>
        let '(s1, r) := exec s c in
        match r with
        | Aborted | IllFormed => (s1, [r])
        | _ => let '(s2, rs) := exec_all s1 cs in (s2, r :: rs)
        end
    end.
  (** A program begins without handles (joint_state_interface.h:48-164 construct them). *)
  Definition start (m : mem V) : pst V := mkP [] m.
End Exec.

(* ---------------------------------------------------------------- which interfaces claim *)

(** The interface classes of the package
    (the files and lines are given below at [claims_of], joint_state_interface.h:230 and following). *)
Inductive iclass := JointStateI | JointCommandI | EffortJointI | VelocityJointI | PositionJointI | PosVelI | PosVelAccI | PvtI
  | JointModeI | ActuatorStateI | ActuatorCommandI | EffortActuatorI | VelocityActuatorI | PositionActuatorI | ImuI | ForceTorqueI.
(** The ClaimPolicy of each class: joint_state_interface.h:230, joint_command_interface.h:79-88,
    posvel_command_interface.h:90, posvelacc_command_interface.h:85,
    position_velocity_torque_gains_command_interface.h:107, joint_mode_interface.h:115, actuator_state_interface.h:231,
    actuator_command_interface.h:76-85, imu_sensor_interface.h:115, force_torque_sensor_interface.h:75; the default is
    DontClaimResources (hardware_resource_manager.h:78-79). *)
Definition claims_of (c : iclass) : bool :=
  match c with
  | JointCommandI | EffortJointI | VelocityJointI | PositionJointI | PosVelI | PosVelAccI | PvtI => true
  | JointStateI | JointModeI | ActuatorStateI | ActuatorCommandI | EffortActuatorI | VelocityActuatorI | PositionActuatorI
  | ImuI | ForceTorqueI => false
  end.
