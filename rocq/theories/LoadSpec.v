(** What is claimed about the parser and the loader of transmissions (ParseModel.v,
    LoadModel.v). *)
From Coq Require Import Permutation.
From Verif Require Import TransSpec LoadModel.
Local Open Scope string_scope.

(** ** The parser *)

(** [l'] are the results for those elements of [l] that have one, in the same order. *)
Inductive selects {T U : Type} (R : T -> U -> Prop) : list T -> list U -> Prop :=
| sel_nil : selects R [] []
| sel_keep x y l l' : R x y -> selects R l l' -> selects R (x :: l) (y :: l')
| sel_skip x l l' : (forall y, ~ R x y) -> selects R l l' -> selects R (x :: l) l'.

(** A joint element describes a joint: it has a non-empty name and at least one hardware
    interface with a text; the role is optional. *)
Definition describes_joint (n : node) (j : joint_info) : Prop :=
  attribute "name" n = Some (ji_name j) /\ ji_name j <> "" /\
  selects (fun e s => get_text e = Some s) (children "hardwareInterface" n) (ji_ifaces j) /\ ji_ifaces j <> [] /\
  match first_child "role" n with
  | Some r => match get_text r with Some s => ji_role j = s | None => ji_role j = "" end
  | None => ji_role j = ""
  end /\ ji_xml j = n.
(** An actuator element describes an actuator: it has a non-empty name; hardware interfaces are optional. *)
Definition describes_actuator (n : node) (a : actuator_info) : Prop :=
  attribute "name" n = Some (ai_name a) /\ ai_name a <> "" /\
  selects (fun e s => get_text e = Some s) (children "hardwareInterface" n) (ai_ifaces a) /\ ai_xml a = n.
(** A transmission element describes a transmission: it has a non-empty name, its first type
    element has a text, all joints and actuators have a name attribute, and at least one joint
    and one actuator is described. *)
Definition describes_transmission (n : node) (t : transmission_info) : Prop :=
  attribute "name" n = Some (ti_name t) /\ ti_name t <> "" /\
  (exists e, first_child "type" n = Some e /\ get_text e = Some (ti_type t)) /\
  (forall e, In e (children "joint" n ++ children "actuator" n) -> attribute "name" e <> None) /\
  selects describes_joint (children "joint" n) (ti_joints t) /\ ti_joints t <> [] /\
  selects describes_actuator (children "actuator" n) (ti_actuators t) /\ ti_actuators t <> [].

(** What the loader asserts about a description. *)
Definition complete (t : transmission_info) : Prop :=
  ti_joints t <> [] /\ forall j, In j (ti_joints t) -> ji_ifaces j <> [].

(** A number element without text. *)
Definition textless (i : transmission_info) : Prop :=
  exists n tag e, In n (map ai_xml (ti_actuators i) ++ map ji_xml (ti_joints i)) /\
    (tag = "mechanicalReduction" \/ tag = "offset") /\ first_child tag n = Some e /\ get_text e = None.

(** ** The loader *)

Section Spec.
Context (A : larith).

(** The descriptions differ in the order of joints and actuators only. *)
Definition reordered (i i' : transmission_info) : Prop :=
  ti_name i = ti_name i' /\ ti_type i = ti_type i' /\
  Permutation (ti_joints i) (ti_joints i') /\ Permutation (ti_actuators i) (ti_actuators i').

(** The number in a child element, or a default if there is no such element. *)
Definition number (tag : string) (default : option (num A)) (n : node) (x : num A) : Prop :=
  match first_child tag n with
  | None => default = Some x
  | Some e => exists s, get_text e = Some s /\ stod A s = Some x
  end.
(** The role of an element. *)
Definition role (n : node) (r : string) : Prop := exists e, first_child "role" n = Some e /\ get_text e = Some r.

(** Parameters of the two-joint transmissions: those of the elements with the roles. *)
Definition by_roles (i : transmission_info) (ar jr off : list (num A)) : Prop :=
  exists a1 a2 j1 j2 x1 x2 y1 y2 z1 z2,
    Permutation (ti_actuators i) [a1; a2] /\ Permutation (ti_joints i) [j1; j2] /\
    role (ai_xml a1) "actuator1" /\ role (ai_xml a2) "actuator2" /\ role (ji_xml j1) "joint1" /\ role (ji_xml j2) "joint2" /\
    number "mechanicalReduction" None (ai_xml a1) x1 /\ number "mechanicalReduction" None (ai_xml a2) x2 /\
    number "mechanicalReduction" (Some (one A)) (ji_xml j1) y1 /\ number "mechanicalReduction" (Some (one A)) (ji_xml j2) y2 /\
    number "offset" (Some (zero A)) (ji_xml j1) z1 /\ number "offset" (Some (zero A)) (ji_xml j2) z2 /\
    ar = [x1; x2] /\ jr = [y1; y2] /\ off = [z1; z2].

(** The transmission a description stands for. *)
Definition as_described (i : transmission_info) (t : transmission A) : Prop :=
  (ti_type i = "transmission_interface/SimpleTransmission" /\ exists a j r o,
     ti_actuators i = [a] /\ ti_joints i = [j] /\
     number "mechanicalReduction" None (ai_xml a) r /\ number "offset" (Some (zero A)) (ji_xml j) o /\ make_simple A r o = Some t) \/
  (ti_type i = "transmission_interface/DifferentialTransmission" /\ exists ar jr off,
     by_roles i ar jr off /\
     make_differential A ar jr off (forallb (fun j => match first_child "ignoreTransmissionAbsoluteEncoder" (ji_xml j) with Some _ => true | None => false end) (ti_joints i)) = Some t) \/
  (ti_type i = "transmission_interface/FourBarLinkageTransmission" /\ exists ar jr off,
     by_roles i ar jr off /\ make_four_bar A ar jr off = Some t).

(** A sequence of calls of [load]. *)
Definition after (infos : list transmission_info) (l : loader A) : loader A :=
  fold_left (fun l i => fst (load_info A i l)) infos l.

(** The transmission interface of a kind. *)
Definition iface (K : hkind) (l : loader A) : slot (handle A) :=
  match K with
  | ActToJntState => l_a2j_state A l
  | JntToActState => l_j2a_state A l
  | JntToActPosition => t_pos (l_j2a_cmd A l) | JntToActVelocity => t_vel (l_j2a_cmd A l) | JntToActEffort => t_eff (l_j2a_cmd A l)
  | ActToJntPosition => t_pos (l_a2j_cmd A l) | ActToJntVelocity => t_vel (l_a2j_cmd A l) | ActToJntEffort => t_eff (l_a2j_cmd A l)
  end.
(** The handle registered under a name in [robot_transmissions.get<...>()]. *)
Definition registered (K : hkind) (name : string) (h : handle A) (l : loader A) : Prop :=
  exists m, s_get (iface K l) = Some m /\ sfind name m = Some h.

(** What a hardware interface of a joint asks for: transmission interfaces. *)
Definition asks (hw_iface : string) : list hkind :=
  if string_dec hw_iface "hardware_interface/JointStateInterface" then [ActToJntState]
  else if string_dec hw_iface "hardware_interface/PositionJointInterface" then [ActToJntState; JntToActPosition]
  else if string_dec hw_iface "hardware_interface/VelocityJointInterface" then [ActToJntState; JntToActVelocity]
  else if string_dec hw_iface "hardware_interface/EffortJointInterface" then [ActToJntState; JntToActEffort]
  else if string_dec hw_iface "hardware_interface/BiDirectionalPositionJointInterface"
    then [ActToJntState; JntToActPosition; JntToActState; ActToJntPosition]
  else if string_dec hw_iface "hardware_interface/BiDirectionalVelocityJointInterface"
    then [ActToJntState; JntToActVelocity; JntToActState; ActToJntVelocity]
  else if string_dec hw_iface "hardware_interface/BiDirectionalEffortJointInterface"
    then [ActToJntState; JntToActEffort; JntToActState; ActToJntEffort]
  else [].

(** What is commanded through a transmission interface, if it is for commands. *)
Definition commands (K : hkind) : option command :=
  match K with
  | ActToJntState | JntToActState => None
  | ActToJntPosition | JntToActPosition => Some Pos
  | ActToJntVelocity | JntToActVelocity => Some Vel
  | ActToJntEffort | JntToActEffort => Some Eff
  end.

(** [xs] are the entries for the names, in that order. *)
Definition entries {T} (names : list string) (m : smap T) (xs : list T) : Prop :=
  Forall2 (fun n x => sfind n m = Some x) names xs.

(** The vector of optional variables: all of them if all handles have one, else empty. *)
Definition if_all {T} (f : T -> option addr) (xs : list T) (v : vec) : Prop :=
  (Forall (fun x => f x <> None) xs -> v = map f xs) /\ (~ Forall (fun x => f x <> None) xs -> v = []).

(** A handle connects the actuator states and the joint states of the robot that the
    description names, in the order of the description. *)
Definition connects_states (i : transmission_info) (l : loader A) (h : handle A) : Prop :=
  exists ma acts mj jnts,
    l_act_state A l = Some ma /\ entries (map ai_name (ti_actuators i)) ma acts /\
    s_get (l_jnt_state A l) = Some mj /\ entries (map ji_name (ti_joints i)) mj jnts /\
    side Position (h_act A h) = map (fun x => Some (as_pos x)) acts /\ side Position (h_jnt A h) = map (fun x => Some (js_pos x)) jnts /\
    side Velocity (h_act A h) = map (fun x => Some (as_vel x)) acts /\ side Velocity (h_jnt A h) = map (fun x => Some (js_vel x)) jnts /\
    side Effort (h_act A h) = map (fun x => Some (as_eff x)) acts /\ side Effort (h_jnt A h) = map (fun x => Some (js_eff x)) jnts /\
    if_all as_abs acts (side AbsolutePosition (h_act A h)) /\
    Forall (fun x => js_abs x <> None) jnts /\ side AbsolutePosition (h_jnt A h) = map js_abs jnts /\
    if_all as_tor acts (side TorqueSensor (h_act A h)) /\
    Forall (fun x => js_tor x <> None) jnts /\ side TorqueSensor (h_jnt A h) = map js_tor jnts.

Definition quantity_of (k : command) : quantity := match k with Pos => Position | Vel => Velocity | Eff => Effort end.

(** A handle connects the actuator commands and the joint commands of the robot that the
    description names; the joint handles also give access to the joints' states. *)
Definition connects_commands (k : command) (i : transmission_info) (l : loader A) (h : handle A) : Prop :=
  exists ma acts mj jnts ms,
    tget k (l_act_cmd A l) = Some ma /\ entries (map ai_name (ti_actuators i)) ma acts /\
    s_get (tget k (l_jnt_cmd A l)) = Some mj /\ entries (map ji_name (ti_joints i)) mj jnts /\
    s_get (l_jnt_state A l) = Some ms /\ entries (map ji_name (ti_joints i)) ms (map jc_state jnts) /\
    side (quantity_of k) (h_act A h) = map Some acts /\ side (quantity_of k) (h_jnt A h) = map (fun x => Some (jc_cmd x)) jnts /\
    forall q, q <> quantity_of k -> side q (h_act A h) = [] /\ side q (h_jnt A h) = [].

(** A handle does what its description says: it has the name and the described transmission and connects
    the described actuators and joints. *)
Definition connects (K : hkind) (i : transmission_info) (l : loader A) (h : handle A) : Prop :=
  h_name A h = ti_name i /\ as_described i (h_trans A h) /\
  match commands K with None => connects_states i l h | Some k => connects_commands k i l h end.

(** The actuators of the description are on the robot's interfaces needed for a transmission interface. *)
Definition on_robot (K : hkind) (i : transmission_info) (l : loader A) : Prop :=
  (exists m xs, l_act_state A l = Some m /\ entries (map ai_name (ti_actuators i)) m xs) /\
  match commands K with
  | None => True
  | Some k => exists m xs, tget k (l_act_cmd A l) = Some m /\ entries (map ai_name (ti_actuators i)) m xs
  end.

(** The hardware interfaces of a description, those of its first joint (all joints must have the same). *)
Definition interfaces (i : transmission_info) : list string :=
  match ti_joints i with [] => [] | j :: _ => ji_ifaces j end.
(** A hardware interface is known and the robot has the actuators for it. *)
Definition served (i : transmission_info) (l : loader A) (hw : string) : Prop :=
  asks hw <> [] /\ forall K, In K (asks hw) -> on_robot K i l.

(** A description can be loaded. *)
Definition loadable (i : transmission_info) (l : loader A) : Prop :=
  (exists t, as_described i t) /\ (forall j, In j (ti_joints i) -> Permutation (interfaces i) (ji_ifaces j)) /\
  exists hw, In hw (interfaces i) /\ served i l hw.

(** The variables of an actuator state handle. *)
Definition state_vars (x : act_state) : list addr :=
  [as_pos x; as_vel x; as_eff x] ++
  match as_abs x with Some a => [a] | None => [] end ++ match as_tor x with Some a => [a] | None => [] end.

(** The actuators' variables lie below [next], so none of them is one of the loader's own. *)
Definition below (acts : option (smap act_state)) (cmds : triple (option (smap addr))) (next : addr) : Prop :=
  (forall m n x a, acts = Some m -> sfind n m = Some x -> In a (state_vars x) -> a < next) /\
  (forall k m n a, tget k cmds = Some m -> sfind n m = Some a -> a < next).
(** Different actuators have different variables. *)
Definition own_variables (acts : option (smap act_state)) (cmds : triple (option (smap addr))) : Prop :=
  (forall m n x, acts = Some m -> sfind n m = Some x -> NoDup (state_vars x)) /\
  (forall m n n' x x' a, acts = Some m -> n <> n' -> sfind n m = Some x -> sfind n' m = Some x' ->
     In a (state_vars x) -> ~ In a (state_vars x')) /\
  (forall k m n n' a a', tget k cmds = Some m -> n <> n' -> sfind n m = Some a -> sfind n' m = Some a' -> a <> a').
(** Every joint or actuator belongs to one transmission, once. *)
Definition unshared (names : transmission_info -> list string) (infos : list transmission_info) : Prop :=
  (forall i, In i infos -> NoDup (names i)) /\
  forall i i' n, In i infos -> In i' infos -> ti_name i <> ti_name i' -> In n (names i) -> ~ In n (names i').

(** What a variable of a joint is for. *)
Inductive purpose := StateOf (q : quantity) | CommandOf (k : command).
(** A variable that the robot's joint interfaces show under a name. *)
Definition shows (l : loader A) (n : string) (p : purpose) (a : addr) : Prop :=
  match p with
  | StateOf q => exists m x, s_get (l_jnt_state A l) = Some m /\ sfind n m = Some x /\
      match q with
      | Position => js_pos x = a | Velocity => js_vel x = a | Effort => js_eff x = a
      | AbsolutePosition => js_abs x = Some a | TorqueSensor => js_tor x = Some a
      end
  | CommandOf k => exists m x, s_get (tget k (l_jnt_cmd A l)) = Some m /\ sfind n m = Some x /\ jc_cmd x = a
  end.
(** What a transmission interface is for, on the side of the joints. *)
Definition deals_with (K : hkind) (p : purpose) : Prop :=
  match p with StateOf _ => commands K = None | CommandOf k => commands K = Some k end.

(** A joint state handle shows the variables of raw joint data, an absolute position and a torque sensor only
    if the flags of the data say there is one (transmission_interface_loader.h:73-88). *)
Definition flagged (r : raw) (x : jnt_state) : Prop :=
  js_pos x = raw_pos r /\ js_vel x = raw_vel r /\ js_eff x = raw_eff r /\
  (rj_has_abs r = true -> js_abs x = Some (raw_abs r)) /\ (rj_has_abs r = false -> js_abs x = None) /\
  (rj_has_tor r = true -> js_tor x = Some (raw_tor r)) /\ (rj_has_tor r = false -> js_tor x = None).
(** The joint state handle the robot shows under a name. *)
Definition joint_shown (l : loader A) (n : string) (x : jnt_state) : Prop :=
  exists m, s_get (l_jnt_state A l) = Some m /\ sfind n m = Some x.

End Spec.
