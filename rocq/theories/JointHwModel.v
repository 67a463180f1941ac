(** The joint interfaces the transmission loader adds to a robot, as the robot's interface manager sees them:
    transmission_interface/src/joint_state_interface_provider.cpp and position_, velocity_,
    effort_joint_interface_provider.cpp, [updateJointInterfaces].  LoadModel has the same functions with the handles in
    full, but without the manager's list of resources. *)
From Verif Require Export HwTypes SMap HwModel.
Local Open Scope string_scope.
Local Open Scope list_scope.

(** transmission_interface_loader.h:93-99 [JointInterfaces]: the four interfaces the loader owns. *)
Inductive jface := JState | JPosition | JVelocity | JEffort.
(** Their types (joint_state_interface.h:230, joint_command_interface.h:82-88). *)
Definition jtype (j : jface) : string :=
  match j with
  | JState => "hardware_interface::JointStateInterface"
  | JPosition => "hardware_interface::PositionJointInterface"
  | JVelocity => "hardware_interface::VelocityJointInterface"
  | JEffort => "hardware_interface::EffortJointInterface"
  end.
(** All are ResourceManagers; those for commands claim (joint_state_interface.h:230, joint_command_interface.h:79). *)
Definition jkind (j : jface) : tkind := mkKind true (match j with JState => false | _ => true end).

(** joint_state_interface_provider.cpp:44-49, position_joint_interface_provider.cpp:49-55 and twins: the robot's interface,
    after the loader's own ([own j]) has been registered if there was none.  [None]: a null pointer is dereferenced. *)
Definition provide (own : jface -> nat) (j : jface) (m : mgr) (w : world) : option (mgr * world * nat) :=
  let '(m1, w1, p) := get (jkind j) (jtype j) m w in
  match (match p with Some _ => Some m1 | None => register_interface (jkind j) w1 m1 (jtype j) (Some (own j)) end) with
  | None => None
  | Some m2 => let '(m3, w3, q) := get (jkind j) (jtype j) m2 w1 in
               match q with Some i => Some (m3, w3, i) | None => None end
  end.

(** joint_state_interface_provider.cpp:52-99: a handle for each joint that has none.  [var]: stands for the pointers in a
    handle (see LoadModel). *)
Fixpoint add_states (var : string -> nat) (names : list string) (i : nat) (w : world) : world :=
  match names with
  | [] => w
  | n :: names' =>
      if existsb (String.eqb n) (rm_names (ho_map (w_obj w i))) then add_states var names' i w
      else add_states var names' i (set_obj w i (add_handle (w_obj w i) (mkHandle n (var n))))
  end.
(** position_joint_interface_provider.cpp:58-71 and twins.  Line 68 asks the loader's own joint state interface;
    [None]: that throws. *)
Fixpoint add_commands (var : string -> nat) (state : nat) (names : list string) (i : nat) (w : world) : option world :=
  match names with
  | [] => Some w
  | n :: names' =>
      if existsb (String.eqb n) (rm_names (ho_map (w_obj w i))) then add_commands var state names' i w
      else match rm_get (ho_map (w_obj w state)) n with
           | None => None
           | Some _ => add_commands var state names' i (set_obj w i (add_handle (w_obj w i) (mkHandle n (var n))))
           end
  end.

(** joint_state_interface_provider.cpp:38-101 and position_joint_interface_provider.cpp:38-73 with its twins:
    [updateJointInterfaces] of the provider for an interface.  [None]: it does not return. *)
Definition update_joints (own : jface -> nat) (var : jface -> string -> nat) (j : jface) (names : list string) (m : mgr) (w : world)
  : option (mgr * world) :=
  match provide own JState m w with
  | None => None
  | Some (m1, w1, i) =>
      let w2 := add_states (var JState) names i w1 in
      match j with
      | JState => Some (m1, w2)
      | _ => match provide own j m1 w2 with
             | None => None
             | Some (m3, w3, i') =>
                 match add_commands (var j) (own JState) names i' w3 with None => None | Some w4 => Some (m3, w4) end
             end
      end
  end.
(** The calls made while descriptions are loaded (transmission_interface_loader.cpp:63-67), whichever they are. *)
Fixpoint update_all (own : jface -> nat) (var : jface -> string -> nat) (us : list (jface * list string)) (m : mgr) (w : world)
  : option (mgr * world) :=
  match us with
  | [] => Some (m, w)
  | (j, names) :: us' => match update_joints own var j names m w with None => None | Some (m1, w1) => update_all own var us' m1 w1 end
  end.
