(** Model of the transmission loaders (transmission_interface/src/transmission_loader.cpp,
    simple_transmission_loader.cpp, differential_transmission_loader.cpp,
    four_bar_linkage_transmission_loader.cpp), of the interface providers
    (src/*_joint_interface_provider.cpp) and of the loader that ties them together
    (src/transmission_interface_loader.cpp). *)
From Verif Require Export TransModel ParseModel.
Local Open Scope string_scope.

(** What the loaders need besides arithmetic: [1.0] (differential_transmission_loader.cpp:221)
    and [std::stod] (transmission_loader.cpp:61, 97, 133; [None]: it throws a [std::logic_error]). *)
Record larith := mkLarith { larith_d :> darith; one : num larith_d; stod : string -> option (num larith_d) }.

(** Result of the helpers of TransmissionLoader: a value, [false], or undefined behaviour
    (transmission_loader.cpp:35-233). *)
Inductive got (T : Type) := Got (x : T) | Failed | Undef.
Arguments Got {T}. Arguments Failed {T}. Arguments Undef {T}.
(** Sequencing; not code of its own (as at simple_transmission_loader.cpp:45-69). *)
Definition gbind {T U} (r : got T) (k : T -> got U) : got U :=
  match r with Got x => k x | Failed => Failed | Undef => Undef end.
Notation "x <-- r ;; k" := (gbind r (fun x => k)) (at level 61, r at next level, right associativity).

(** The joint command interfaces (hardware_interface/joint_command_interface.h:82-88) and the
    actuator command interfaces (actuator_command_interface.h:79-85), by what is commanded. *)
Inductive command := Pos | Vel | Eff.

Section Load.
Context (A : larith).
Notation F := (num A).

(** ** Loading a transmission object *)

(** transmission_loader.cpp:35-69 [getActuatorReduction], 71-105 [getJointReduction],
    107-141 [getJointOffset]: they differ in the tag and the messages only.  An element
    without text makes [std::stod] construct a string from a null pointer (61, 97, 133). *)
Definition get_number (tag : string) (required : bool) (old : F) (parent : node) : got F :=
  match first_child tag parent with
  | None => if required then Failed else Got old
  | Some el => match get_text el with
               | None => Undef
               | Some s => match stod A s with None => Failed | Some x => Got x end
               end
  end.
(** transmission_loader.cpp:143-187 [getActuatorRole] and 189-233 [getJointRole] with
    [required] true, the only way they are called. *)
Definition get_role (parent : node) : got string :=
  match first_child "role" parent with
  | None => Failed
  | Some el => match get_text el with None => Failed | Some s => Got s end
  end.

(** simple_transmission_loader.cpp:42-84 [load].  [Failed] is the null pointer. *)
Definition load_simple (info : transmission_info) : got (transmission A) :=
  match ti_actuators info, ti_joints info with
  | [a], [j] =>
      r <-- get_number "mechanicalReduction" true (zero A) (ai_xml a) ;;
      o <-- get_number "offset" false (zero A) (ji_xml j) ;;
      match make_simple A r o with None => Failed | Some t => Got t end
  | _, _ => Failed
  end.

(** differential_transmission_loader.cpp:85-140 and 161-213, the same lines for actuators and
    for joints (four_bar_linkage_transmission_loader.cpp:82-137 and 155-209): read and check
    the roles of the two elements, and sort the elements by role. *)
Definition by_role (role1 role2 : string) (e0 e1 : node) : got (node * node) :=
  let valid r := String.eqb role1 r || String.eqb role2 r in
  r0 <-- get_role e0 ;;
  if negb (valid r0) then Failed else
  r1 <-- get_role e1 ;;
  if negb (valid r1) then Failed else
  if String.eqb r0 r1 then Failed else
  if String.eqb role1 r0 then Got (e0, e1) else Got (e1, e0).

(** differential_transmission_loader.cpp:82-156 [getActuatorConfig]
    (four_bar_linkage_transmission_loader.cpp:79-153). *)
Definition actuator_config (e0 e1 : node) : got (list F) :=
  es <-- by_role "actuator1" "actuator2" e0 e1 ;;
  r0 <-- get_number "mechanicalReduction" true (zero A) (fst es) ;;
  r1 <-- get_number "mechanicalReduction" true (zero A) (snd es) ;;
  Got [r0; r1].

(** differential_transmission_loader.cpp:158-255 [getJointConfig] without lines 246-252
    (four_bar_linkage_transmission_loader.cpp:155-243). *)
Definition joint_config (e0 e1 : node) : got (list F * list F) :=
  es <-- by_role "joint1" "joint2" e0 e1 ;;
  r0 <-- get_number "mechanicalReduction" false (one A) (fst es) ;;
  o0 <-- get_number "offset" false (zero A) (fst es) ;;
  r1 <-- get_number "mechanicalReduction" false (one A) (snd es) ;;
  o1 <-- get_number "offset" false (zero A) (snd es) ;;
  Got ([r0; r1], [o0; o1]).

(** differential_transmission_loader.cpp:246-252. *)
Definition ignore_absolute (e0 e1 : node) : bool :=
  let has e := match first_child "ignoreTransmissionAbsoluteEncoder" e with None => false | Some _ => true end in
  has e0 && has e1.

(** differential_transmission_loader.cpp:42-80 [load]. *)
Definition load_differential (info : transmission_info) : got (transmission A) :=
  match ti_actuators info, ti_joints info with
  | [a0; a1], [j0; j1] =>
      ar <-- actuator_config (ai_xml a0) (ai_xml a1) ;;
      jc <-- joint_config (ji_xml j0) (ji_xml j1) ;;
      match make_differential A ar (fst jc) (snd jc) (ignore_absolute (ji_xml j0) (ji_xml j1)) with
      | None => Failed | Some t => Got t end
  | _, _ => Failed
  end.

(** four_bar_linkage_transmission_loader.cpp:42-77 [load]. *)
Definition load_four_bar (info : transmission_info) : got (transmission A) :=
  match ti_actuators info, ti_joints info with
  | [a0; a1], [j0; j1] =>
      ar <-- actuator_config (ai_xml a0) (ai_xml a1) ;;
      jc <-- joint_config (ji_xml j0) (ji_xml j1) ;;
      match make_four_bar A ar (fst jc) (snd jc) with None => Failed | Some t => Got t end
  | _, _ => Failed
  end.

(** transmission_interface_loader.cpp:136-149 with the plugins of
    transmission_interface/ros_control_plugins.xml:4-26.  An unknown type makes pluginlib
    throw LibraryLoadException, which is caught; other plugins are not modelled. *)
Definition load_transmission (info : transmission_info) : got (transmission A) :=
  if String.eqb (ti_type info) "transmission_interface/SimpleTransmission" then load_simple info
  else if String.eqb (ti_type info) "transmission_interface/DifferentialTransmission" then load_differential info
  else if String.eqb (ti_type info) "transmission_interface/FourBarLinkageTransmission" then load_four_bar info
  else Failed.

(** ** Interfaces of the robot *)

(** hardware_interface/actuator_state_interface.h:45-222 [ActuatorStateHandle]: the pointers.
    The constructors reject null pointers for the first three. *)
Record act_state := mkActState { as_pos : addr; as_vel : addr; as_eff : addr; as_abs : option addr; as_tor : option addr }.
(** hardware_interface/joint_state_interface.h:45-221 [JointStateHandle]. *)
Record jnt_state := mkJntState { js_pos : addr; js_vel : addr; js_eff : addr; js_abs : option addr; js_tor : option addr }.
(** hardware_interface/joint_command_interface.h:41-66 [JointHandle]. *)
Record jnt_cmd := mkJntCmd { jc_state : jnt_state; jc_cmd : addr }.

(** One thing for each kind of command (transmission_interface_loader.h:96-98, 104-106, 112-114). *)
Record triple (T : Type) := mkTriple { t_pos : T; t_vel : T; t_eff : T }.
Arguments mkTriple {T}. Arguments t_pos {T}. Arguments t_vel {T}. Arguments t_eff {T}.
(** The member for [k] (transmission_interface_loader.h:96-98, 104-106, 112-114). *)
Definition tget {T} (k : command) (t : triple T) : T := match k with Pos => t_pos t | Vel => t_vel t | Eff => t_eff t end.
(** Assignment to the member for [k] (transmission_interface_loader.h:96-98, 104-106, 112-114). *)
Definition tset {T} (k : command) (x : T) (t : triple T) : triple T :=
  match k with
  | Pos => mkTriple x (t_vel t) (t_eff t) | Vel => mkTriple (t_pos t) x (t_eff t) | Eff => mkTriple (t_pos t) (t_vel t) x
  end.

(** An interface type in a RobotHW or RobotTransmissions: the interface the robot came with,
    if any; the loader's own interface object (transmission_interface_loader.h:93-115); and
    whether the latter has been registered.  Combined interfaces of nested managers are not
    modelled. *)
Record slot (H : Type) := mkSlot { s_theirs : option (smap H); s_mine : smap H; s_on : bool }.
Arguments mkSlot {H}. Arguments s_theirs {H}. Arguments s_mine {H}. Arguments s_on {H}.
(** hardware_interface/internal/interface_manager.h:182-239 [get]. *)
Definition s_get {H} (s : slot H) : option (smap H) :=
  match s_theirs s with Some m => Some m | None => if s_on s then Some (s_mine s) else None end.
(** For example joint_state_interface_provider.cpp:44-49: register the loader's own interface if there is none. *)
Definition s_ensure {H} (s : slot H) : slot H :=
  match s_get s with Some _ => s | None => mkSlot (s_theirs s) (s_mine s) true end.
(** [registerHandle] on the interface [get] returns (hardware_interface/internal/resource_manager.h:93-106). *)
Definition s_put {H} (name : string) (h : H) (s : slot H) : slot H :=
  match s_theirs s with
  | Some m => mkSlot (Some (sset name h m)) (s_mine s) (s_on s)
  | None => mkSlot None (sset name h (s_mine s)) (s_on s)
  end.
(** transmission_interface_loader.h:186-204 [hasResource] on an interface's content. *)
Definition has_resource {H} (name : string) (m : smap H) : bool :=
  match sfind name m with Some _ => true | None => false end.
(** [hasResource(name, interface)] where [interface] is what [get] returned
    (joint_state_interface_provider.cpp:57, position_joint_interface_provider.cpp:63). *)
Definition s_has {H} (name : string) (s : slot H) : bool :=
  match s_get s with Some m => has_resource name m | None => false end.

(** transmission_interface_loader.h:73-86 [RawJointData]: the address of its first variable (the
    eight variables are at consecutive addresses) and the two flags. *)
Record raw := mkRaw { rj_base : addr; rj_has_abs : bool; rj_has_tor : bool }.
(** transmission_interface_loader.h:75-82: position, velocity, effort, absolute_position, torque_sensor. *)
Definition raw_pos (r : raw) : addr := rj_base r.
(** transmission_interface_loader.h:76: velocity. *)
Definition raw_vel (r : raw) : addr := rj_base r + 1.
(** transmission_interface_loader.h:77: effort. *)
Definition raw_eff (r : raw) : addr := rj_base r + 2.
(** transmission_interface_loader.h:81: absolute_position. *)
Definition raw_abs (r : raw) : addr := rj_base r + 6.
(** transmission_interface_loader.h:82: torque_sensor. *)
Definition raw_tor (r : raw) : addr := rj_base r + 7.
(** transmission_interface_loader.h:78-80: position_cmd, velocity_cmd, effort_cmd. *)
Definition raw_cmd (k : command) (r : raw) : addr :=
  match k with Pos => rj_base r + 3 | Vel => rj_base r + 4 | Eff => rj_base r + 5 end.

(** transmission_interface_loader.h:117-126 [TransmissionLoaderData], with the interfaces of the
    robot hardware and of the robot transmissions it points to.  [l_next]: addresses from here
    on are free. *)
Record loader := mkLoader {
  l_act_state : option (smap act_state);
  l_act_cmd : triple (option (smap addr));
  l_jnt_state : slot jnt_state;
  l_jnt_cmd : triple (slot jnt_cmd);
  l_raw : smap raw;
  l_next : addr;
  l_a2j_state : slot (handle A);
  l_j2a_cmd : triple (slot (handle A));
  l_j2a_state : slot (handle A);
  l_a2j_cmd : triple (slot (handle A));
  l_transmissions : list (transmission A) }.

(** transmission_interface_loader.h:95: change of joint_state_interface or of the interface the robot came with. *)
Definition set_jnt_state (s : slot jnt_state) (l : loader) : loader :=
  mkLoader (l_act_state l) (l_act_cmd l) s (l_jnt_cmd l) (l_raw l) (l_next l)
    (l_a2j_state l) (l_j2a_cmd l) (l_j2a_state l) (l_a2j_cmd l) (l_transmissions l).
(** transmission_interface_loader.h:96-98: the same for the command interfaces of joints. *)
Definition set_jnt_cmd (k : command) (s : slot jnt_cmd) (l : loader) : loader :=
  mkLoader (l_act_state l) (l_act_cmd l) (l_jnt_state l) (tset k s (l_jnt_cmd l)) (l_raw l) (l_next l)
    (l_a2j_state l) (l_j2a_cmd l) (l_j2a_state l) (l_a2j_cmd l) (l_transmissions l).
(** transmission_interface_loader.h:122: change of raw_joint_data_map. *)
Definition set_raw (m : smap raw) (next : addr) (l : loader) : loader :=
  mkLoader (l_act_state l) (l_act_cmd l) (l_jnt_state l) (l_jnt_cmd l) m next
    (l_a2j_state l) (l_j2a_cmd l) (l_j2a_state l) (l_a2j_cmd l) (l_transmissions l).
(** transmission_interface_loader.h:103: change of act_to_jnt_state. *)
Definition set_a2j_state (s : slot (handle A)) (l : loader) : loader :=
  mkLoader (l_act_state l) (l_act_cmd l) (l_jnt_state l) (l_jnt_cmd l) (l_raw l) (l_next l)
    s (l_j2a_cmd l) (l_j2a_state l) (l_a2j_cmd l) (l_transmissions l).
(** transmission_interface_loader.h:104-106: change of jnt_to_act_pos_cmd and so on. *)
Definition set_j2a_cmd (k : command) (s : slot (handle A)) (l : loader) : loader :=
  mkLoader (l_act_state l) (l_act_cmd l) (l_jnt_state l) (l_jnt_cmd l) (l_raw l) (l_next l)
    (l_a2j_state l) (tset k s (l_j2a_cmd l)) (l_j2a_state l) (l_a2j_cmd l) (l_transmissions l).
(** transmission_interface_loader.h:111: change of jnt_to_act_state. *)
Definition set_j2a_state (s : slot (handle A)) (l : loader) : loader :=
  mkLoader (l_act_state l) (l_act_cmd l) (l_jnt_state l) (l_jnt_cmd l) (l_raw l) (l_next l)
    (l_a2j_state l) (l_j2a_cmd l) s (l_a2j_cmd l) (l_transmissions l).
(** transmission_interface_loader.h:112-114: change of act_to_jnt_pos_cmd and so on. *)
Definition set_a2j_cmd (k : command) (s : slot (handle A)) (l : loader) : loader :=
  mkLoader (l_act_state l) (l_act_cmd l) (l_jnt_state l) (l_jnt_cmd l) (l_raw l) (l_next l)
    (l_a2j_state l) (l_j2a_cmd l) (l_j2a_state l) (tset k s (l_a2j_cmd l)) (l_transmissions l).
(** transmission_interface_loader.cpp:81: transmission_data.push_back(transmission). *)
Definition add_transmission (t : transmission A) (l : loader) : loader :=
  mkLoader (l_act_state l) (l_act_cmd l) (l_jnt_state l) (l_jnt_cmd l) (l_raw l) (l_next l)
    (l_a2j_state l) (l_j2a_cmd l) (l_j2a_state l) (l_a2j_cmd l) (l_transmissions l ++ [t]).

(** How a call ends (transmission_interface_loader.cpp:40-199). *)
Inductive outcome := Returned (b : bool) | Threw | AssertFailed | Undefined.

(** [raw_joint_data_map[name]]: the entry, created if missing (transmission_interface_loader.h:73-88). *)
Definition raw_at (name : string) (l : loader) : raw * loader :=
  match sfind name (l_raw l) with
  | Some r => (r, l)
  | None => let r := mkRaw (l_next l) true true in (r, set_raw (sset name r (l_raw l)) (l_next l + 8) l)
  end.

(** ** The providers *)

(** joint_state_interface_provider.cpp:62-97: the joint state handle for raw joint data. *)
Definition state_handle (r : raw) : jnt_state :=
  if rj_has_abs r && rj_has_tor r then mkJntState (raw_pos r) (raw_vel r) (raw_eff r) (Some (raw_abs r)) (Some (raw_tor r))
  else if rj_has_abs r then mkJntState (raw_pos r) (raw_vel r) (raw_eff r) (Some (raw_abs r)) None
  else if rj_has_tor r then mkJntState (raw_pos r) (raw_vel r) (raw_eff r) None (Some (raw_tor r))
  else mkJntState (raw_pos r) (raw_vel r) (raw_eff r) None None.

(** The loop of joint_state_interface_provider.cpp:52-99. *)
Fixpoint update_states (joints : list joint_info) (l : loader) : loader :=
  match joints with
  | [] => l
  | j :: joints' =>
      if s_has (ji_name j) (l_jnt_state l) then update_states joints' l else
      let '(r, l) := raw_at (ji_name j) l in
      update_states joints' (set_jnt_state (s_put (ji_name j) (state_handle r) (l_jnt_state l)) l)
  end.
(** joint_state_interface_provider.cpp:38-101 [JointStateInterfaceProvider::updateJointInterfaces]; always true. *)
Definition update_joint_states (info : transmission_info) (l : loader) : loader :=
  update_states (ti_joints info) (set_jnt_state (s_ensure (l_jnt_state l)) l).

(** The loop of position_joint_interface_provider.cpp:58-71 (velocity_joint_interface_provider.cpp,
    effort_joint_interface_provider.cpp: the same lines).  Line 68 asks the loader's own joint state
    interface for a handle, whichever the robot uses; [false]: that throws HardwareInterfaceException. *)
Fixpoint update_commands (k : command) (joints : list joint_info) (l : loader) : loader * bool :=
  match joints with
  | [] => (l, true)
  | j :: joints' =>
      if s_has (ji_name j) (tget k (l_jnt_cmd l)) then update_commands k joints' l else
      let '(r, l) := raw_at (ji_name j) l in
      match sfind (ji_name j) (s_mine (l_jnt_state l)) with
      | None => (l, false)
      | Some js => update_commands k joints'
                     (set_jnt_cmd k (s_put (ji_name j) (mkJntCmd js (raw_cmd k r)) (tget k (l_jnt_cmd l))) l)
      end
  end.
(** position_joint_interface_provider.cpp:38-73 [PositionJointInterfaceProvider::updateJointInterfaces]
    and its velocity and effort twins. *)
Definition update_joint_commands (k : command) (info : transmission_info) (l : loader) : loader * bool :=
  let l := update_joint_states info l in
  update_commands k (ti_joints info) (set_jnt_cmd k (s_ensure (tget k (l_jnt_cmd l))) l).

(** Look up all names; [None] if one is missing
    (joint_state_interface_provider.cpp:136-155, transmission_interface_loader.h:226-239). *)
Fixpoint find_all {T} (names : list string) (m : smap T) : option (list T) :=
  match names with
  | [] => Some []
  | n :: names' => match sfind n m with
                   | None => None
                   | Some x => match find_all names' m with None => None | Some xs => Some (x :: xs) end
                   end
  end.

(** ActuatorData() and JointData() (transmission.h:50-70). *)
Definition no_data : data := mkData [] [] [] [] [].
(** [data.position/velocity/effort = v] (position_joint_interface_provider.cpp:90, 116). *)
Definition command_data (k : command) (v : vec) : data :=
  match k with Pos => mkData v [] [] [] [] | Vel => mkData [] v [] [] [] | Eff => mkData [] [] v [] [] end.

(** transmission_interface_loader.h:207-241 [getActuatorHandles]. *)
Definition actuator_handles {T} (info : transmission_info) (iface : option (smap T)) : option (list T) :=
  match iface with None => None | Some m => find_all (map ai_name (ti_actuators info)) m end.

(** Are all there? (joint_state_interface_provider.cpp:188-212). *)
Fixpoint all_some {T U} (f : T -> option U) (l : list T) : bool :=
  match l with [] => true | x :: l' => match f x with None => false | Some _ => all_some f l' end end.

(** joint_state_interface_provider.cpp:160-214 [getActuatorStateData]. *)
Definition actuator_state_data (info : transmission_info) (l : loader) : option data :=
  match actuator_handles info (l_act_state l) with
  | None => None
  | Some hs => Some (mkData (map (fun h => Some (as_pos h)) hs) (map (fun h => Some (as_vel h)) hs) (map (fun h => Some (as_eff h)) hs)
                       (if all_some as_abs hs then map as_abs hs else []) (if all_some as_tor hs then map as_tor hs else []))
  end.
(** position_joint_interface_provider.cpp:96-119 [getActuatorCommandData] and twins. *)
Definition actuator_command_data (k : command) (info : transmission_info) (l : loader) : option data :=
  match actuator_handles info (tget k (l_act_cmd l)) with
  | None => None
  | Some hs => Some (command_data k (map Some hs))
  end.
(** joint_state_interface_provider.cpp:103-158 [getJointStateData]. *)
Definition joint_state_data (info : transmission_info) (l : loader) : option data :=
  match find_all (map ji_name (ti_joints info)) (l_raw l) with
  | None => None
  | Some rs => Some (mkData (map (fun r => Some (raw_pos r)) rs) (map (fun r => Some (raw_vel r)) rs) (map (fun r => Some (raw_eff r)) rs)
                       (if forallb rj_has_abs rs then map (fun r => Some (raw_abs r)) rs else [])
                       (if forallb rj_has_tor rs then map (fun r => Some (raw_tor r)) rs else []))
  end.
(** position_joint_interface_provider.cpp:75-94 [getJointCommandData] and twins. *)
Definition joint_command_data (k : command) (info : transmission_info) (l : loader) : option data :=
  match find_all (map ji_name (ti_joints info)) (l_raw l) with
  | None => None
  | Some rs => Some (command_data k (map (fun r => Some (raw_cmd k r)) rs))
  end.

(** transmission_interface_loader.h:156-164 [TransmissionHandleData]. *)
Record handle_data := mkHData {
  hd_name : string; hd_trans : transmission A; hd_act_state : data; hd_act_cmd : data; hd_jnt_state : data; hd_jnt_cmd : data }.

(** joint_state_interface_provider.cpp:216-233 [registerTransmission]; [false]: the handle's constructor throws. *)
Definition register_state (d : handle_data) (l : loader) : loader * bool :=
  let l := set_a2j_state (s_ensure (l_a2j_state l)) l in
  match make_handle A (hd_name d) (Some (hd_trans d)) (hd_act_state d) (hd_jnt_state d) with
  | None => (l, false)
  | Some h => (set_a2j_state (s_put (hd_name d) h (l_a2j_state l)) l, true)
  end.
(** position_joint_interface_provider.cpp:121-144 [registerTransmission] and twins. *)
Definition register_command (k : command) (d : handle_data) (l : loader) : loader * bool :=
  let '(l, ok) := if has_resource (hd_name d) (s_mine (l_a2j_state l)) then (l, true) else register_state d l in
  if negb ok then (l, false) else
  let l := set_j2a_cmd k (s_ensure (tget k (l_j2a_cmd l))) l in
  match make_handle A (hd_name d) (Some (hd_trans d)) (hd_act_cmd d) (hd_jnt_cmd d) with
  | None => (l, false)
  | Some h => (set_j2a_cmd k (s_put (hd_name d) h (tget k (l_j2a_cmd l))) l, true)
  end.
(** bidirectional_position_joint_interface_provider.cpp:37-75 [registerTransmission] and twins. *)
Definition register_both (k : command) (d : handle_data) (l : loader) : loader * bool :=
  let '(l, ok) := register_command k d l in
  if negb ok then (l, false) else
  let '(l, ok) :=
    if has_resource (hd_name d) (s_mine (l_j2a_state l)) then (l, true) else
    let l := set_j2a_state (s_ensure (l_j2a_state l)) l in
    match make_handle A (hd_name d) (Some (hd_trans d)) (hd_act_state d) (hd_jnt_state d) with
    | None => (l, false)
    | Some h => (set_j2a_state (s_put (hd_name d) h (l_j2a_state l)) l, true)
    end in
  if negb ok then (l, false) else
  let l := set_a2j_cmd k (s_ensure (tget k (l_a2j_cmd l))) l in
  match make_handle A (hd_name d) (Some (hd_trans d)) (hd_act_cmd d) (hd_jnt_cmd d) with
  | None => (l, false)
  | Some h => (set_a2j_cmd k (s_put (hd_name d) h (tget k (l_a2j_cmd l))) l, true)
  end.

(** The classes derived from RequisiteProvider: for joint states only; for a command; for a
    command in both directions
    (joint_state_interface_provider.h:40, position_joint_interface_provider.h:41, bidirectional_position_joint_interface_provider.h:38 and so on). *)
Inductive provider := StateProvider | CommandProvider (k : command) | BothProvider (k : command).

(** transmission_interface/ros_control_plugins.xml:29-90: the provider for a hardware interface. *)
Definition provider_of (hw_iface : string) : option provider :=
  if String.eqb hw_iface "hardware_interface/JointStateInterface" then Some StateProvider
  else if String.eqb hw_iface "hardware_interface/PositionJointInterface" then Some (CommandProvider Pos)
  else if String.eqb hw_iface "hardware_interface/VelocityJointInterface" then Some (CommandProvider Vel)
  else if String.eqb hw_iface "hardware_interface/EffortJointInterface" then Some (CommandProvider Eff)
  else if String.eqb hw_iface "hardware_interface/BiDirectionalPositionJointInterface" then Some (BothProvider Pos)
  else if String.eqb hw_iface "hardware_interface/BiDirectionalVelocityJointInterface" then Some (BothProvider Vel)
  else if String.eqb hw_iface "hardware_interface/BiDirectionalEffortJointInterface" then Some (BothProvider Eff)
  else None.

(** What a provider commands
    (joint_state_interface_provider.h:40-67, position_joint_interface_provider.h:41-61 and so on). *)
Definition commanded (p : provider) : option command :=
  match p with StateProvider => None | CommandProvider k | BothProvider k => Some k end.

(** transmission_interface_loader.cpp:40-87 [RequisiteProvider::loadTransmissionMaps]. *)
Definition load_maps (p : provider) (info : transmission_info) (t : transmission A) (l : loader) : loader * outcome :=
  match actuator_state_data info l with
  | None => (l, Returned false)
  | Some act_state =>
      match (match commanded p with None => Some no_data | Some k => actuator_command_data k info l end) with
      | None => (l, Returned false)
      | Some act_cmd =>
          let '(l, ok) := match commanded p with
                          | None => (update_joint_states info l, true)
                          | Some k => update_joint_commands k info l end in
          if negb ok then (l, Threw) else
          match joint_state_data info l with
          | None => (l, Returned false)
          | Some jnt_state =>
              match (match commanded p with None => Some no_data | Some k => joint_command_data k info l end) with
              | None => (l, Returned false)
              | Some jnt_cmd =>
                  let l := add_transmission t l in
                  let d := mkHData (ti_name info) t act_state act_cmd jnt_state jnt_cmd in
                  let '(l, ok) := match p with
                                  | StateProvider => register_state d l
                                  | CommandProvider k => register_command k d l
                                  | BothProvider k => register_both k d l end in
                  (l, if ok then Returned true else Threw)
              end
          end
      end
  end.

(** ** The loader *)

(** [std::is_permutation] on strings, for ranges of the same length (transmission_interface_loader.cpp:157-159). *)
Fixpoint remove_one (x : string) (l : list string) : option (list string) :=
  match l with
  | [] => None
  | y :: l' => if String.eqb x y then Some l' else match remove_one x l' with None => None | Some l'' => Some (y :: l'') end
  end.
(** [std::is_permutation] (transmission_interface_loader.cpp:157-159), the lengths being equal. *)
Fixpoint is_permutation (l l' : list string) : bool :=
  match l with
  | [] => true
  | x :: r => match remove_one x l' with None => false | Some r' => is_permutation r r' end
  end.

(** transmission_interface_loader.cpp:154-166: every joint has the same set of interfaces. *)
Definition same_interfaces (ref : list string) (joints : list joint_info) : bool :=
  forallb (fun j => Nat.eqb (List.length ref) (List.length (ji_ifaces j)) && is_permutation ref (ji_ifaces j)) joints.

(** The loop of transmission_interface_loader.cpp:170-189; [ok] is [has_at_least_one_hw_iface]. *)
Fixpoint load_ifaces (ifaces : list string) (info : transmission_info) (t : transmission A) (ok : bool) (l : loader)
  : loader * outcome :=
  match ifaces with
  | [] => (l, Returned ok)
  | i :: ifaces' =>
      match provider_of i with
      | None => load_ifaces ifaces' info t ok l
      | Some p =>
          let '(l, o) := load_maps p info t l in
          match o with
          | Returned b => load_ifaces ifaces' info t (ok || b) l
          | _ => (l, o)
          end
      end
  end.

(** transmission_interface_loader.cpp:134-199 [load] of one transmission. *)
Definition load_info (info : transmission_info) (l : loader) : loader * outcome :=
  match load_transmission info with
  | Undef => (l, Undefined)
  | Failed => (l, Returned false)
  | Got t =>
      match ti_joints info with
      | [] => (l, AssertFailed)
      | j :: _ =>
          match ji_ifaces j with
          | [] => (l, AssertFailed)
          | _ => if same_interfaces (ji_ifaces j) (ti_joints info) then load_ifaces (ji_ifaces j) info t false l
                 else (l, Returned false)
          end
      end
  end.

(** transmission_interface_loader.cpp:125-132 [load] of a vector. *)
Fixpoint load_infos (infos : list transmission_info) (l : loader) : loader * outcome :=
  match infos with
  | [] => (l, Returned true)
  | i :: infos' =>
      let '(l, o) := load_info i l in
      match o with Returned true => load_infos infos' l | _ => (l, o) end
  end.

(** transmission_interface_loader.cpp:110-123 [load] of a robot description. *)
Definition load_urdf (doc : document) (l : loader) : loader * outcome :=
  match parse doc [] with
  | ParseUndefined => (l, Undefined)
  | ParseReturns false _ => (l, Returned false)
  | ParseReturns true [] => (l, Returned false)
  | ParseReturns true infos => load_infos infos l
  end.

(** transmission_interface_loader.cpp:89-108, the constructor (with valid pointers), for a robot that
    has actuator interfaces only. *)
Definition new_loader (act_state : option (smap act_state)) (act_cmd : triple (option (smap addr))) (next : addr) : loader :=
  let none {H} : slot H := mkSlot None [] false in
  mkLoader act_state act_cmd none (mkTriple none none none) [] next none (mkTriple none none none) none (mkTriple none none none) [].

End Load.
Arguments mkTriple {T}. Arguments t_pos {T}. Arguments t_vel {T}. Arguments t_eff {T}.
Arguments mkSlot {H}. Arguments s_theirs {H}. Arguments s_mine {H}. Arguments s_on {H}.
