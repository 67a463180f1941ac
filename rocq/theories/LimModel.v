(** Model of joint_limits_interface: the limit handles
    (joint_limits_interface/include/joint_limits_interface/joint_limits_interface.h),
    the limit structs (joint_limits.h) and the two sources of limits
    (joint_limits_rosparam.h, joint_limits_urdf.h).

    The handles are written once over a dictionary [arith] of the floating point
    operations they use, so that the same text is studied with IEEE 754 binary64
    numbers (the C++ double) and with exact rationals. *)
From Verif Require Export HwTypes SMap.

(** The operations on [double] used by joint_limits_interface.h:53-524, with
    [std::numeric_limits<double>::max()] (77-78, 474) and
    [std::numeric_limits<double>::quiet_NaN()] (119, 126, 248, 255). *)
Record arith := mkArith {
  num : Type;
  add : num -> num -> num;
  sub : num -> num -> num;
  mul : num -> num -> num;
  opp : num -> num;
  ltb : num -> num -> bool;
  isnan : num -> bool;
  zero : num;
  maxnum : num;
  nan : num
}.

Section Handles.
Context (A : arith).
Notation F := (num A).

(** [std::max] on doubles (C++ standard, [alg.min.max]): the first argument unless it is less
    (used at joint_limits_interface.h:56, 100, 229, 438, 512). *)
Definition fmax (a b : F) : F := if ltb A a b then b else a.
(** [std::min] on doubles: the first argument unless the second is less
    (used at joint_limits_interface.h:56, 101, 230, 439, 513). *)
Definition fmin (a b : F) : F := if ltb A b a then b else a.

(** joint_limits_interface.h:53-57 [saturate]. *)
Definition saturate (v lo hi : F) : F := fmin (fmax v lo) hi.

(** joint_limits.h:36-51 [JointLimits]. *)
Record limits := mkLimits {
  min_position : F; max_position : F; max_velocity : F; max_acceleration : F;
  max_jerk : F; max_effort : F;
  has_position_limits : bool; has_velocity_limits : bool; has_acceleration_limits : bool;
  has_jerk_limits : bool; has_effort_limits : bool; angle_wraparound : bool }.

(** joint_limits.h:53-59 [SoftJointLimits]. *)
Record soft_limits := mkSoft { soft_min : F; soft_max : F; k_position : F; k_velocity : F }.

(** What the joint handle gives: JointHandle::getPosition, getVelocity
    (joint_state_interface.h:167-169) and getCommand (joint_command_interface.h:61).
    The efforts are not read by any limit handle. *)
Record joint := mkJoint { j_pos : F; j_vel : F; j_cmd : F }.
(** joint_command_interface.h:60 [setCommand]. *)
Definition set_command (j : joint) (c : F) : joint := mkJoint (j_pos j) (j_vel j) c.

(** ** PositionJointSaturationHandle *)

(** joint_limits_interface.h:63-127: members; the joint handle is passed separately. *)
Record pos_sat := mkPosSat { ps_limits : limits; ps_min : F; ps_max : F; ps_prev : F }.

(** joint_limits_interface.h:66-81: the constructor; [prev_cmd_] starts as NaN (126). *)
Definition pos_sat_make (l : limits) : pos_sat :=
  if has_position_limits l then mkPosSat l (min_position l) (max_position l) (nan A)
  else mkPosSat l (opp A (maxnum A)) (maxnum A) (nan A).

(** joint_limits_interface.h:91-112 [enforceLimits]. *)
Definition pos_sat_enforce (h : pos_sat) (j : joint) (dt : F) : pos_sat * joint :=
  let l := ps_limits h in
  let prev := if isnan A (ps_prev h) then j_pos j else ps_prev h in
  let '(lo, hi) :=
    if has_velocity_limits l then
      let delta := mul A (max_velocity l) dt in
      (fmax (sub A prev delta) (ps_min h), fmin (add A prev delta) (ps_max h))
    else (ps_min h, ps_max h) in
  let cmd := saturate (j_cmd j) lo hi in
  (mkPosSat l (ps_min h) (ps_max h) cmd, set_command j cmd).

(** joint_limits_interface.h:117-119 [reset]. *)
Definition pos_sat_reset (h : pos_sat) : pos_sat :=
  mkPosSat (ps_limits h) (ps_min h) (ps_max h) (nan A).

(** ** PositionJointSoftLimitsHandle *)

(** joint_limits_interface.h:160-256: members. *)
Record pos_soft := mkPosSoft { pf_limits : limits; pf_soft : soft_limits; pf_prev : F }.

(** joint_limits_interface.h:165-177: the constructor; [None]: JointLimitsInterfaceException
    is thrown. *)
Definition pos_soft_make (l : limits) (s : soft_limits) : option pos_soft :=
  if has_velocity_limits l then Some (mkPosSoft l s (nan A)) else None.

(** The soft velocity bound towards one soft position limit [b]: the expression
    [saturate(-k_position * (pos - b), -max_vel, max_vel)] of
    joint_limits_interface.h:205-212, 361-367 and 494-498. *)
Definition soft_vel (s : soft_limits) (vmax pos b : F) : F :=
  saturate (mul A (opp A (k_position s)) (sub A pos b)) (opp A vmax) vmax.

(** joint_limits_interface.h:188-241 [enforceLimits]; [None]: the assertion of 190 fails.
    The command is read back after it is written (240), which gives what was written
    (joint_command_interface.h:60-61). *)
Definition pos_soft_enforce (h : pos_soft) (j : joint) (dt : F) : option (pos_soft * joint) :=
  if negb (ltb A (zero A) dt) then None else
  let l := pf_limits h in
  let s := pf_soft h in
  let pos := if isnan A (pf_prev h) then j_pos j else pf_prev h in
  let '(vlo, vhi) :=
    if has_position_limits l then
      (soft_vel s (max_velocity l) pos (soft_min s), soft_vel s (max_velocity l) pos (soft_max s))
    else (opp A (max_velocity l), max_velocity l) in
  let lo := add A pos (mul A vlo dt) in
  let hi := add A pos (mul A vhi dt) in
  let '(lo, hi) :=
    if has_position_limits l then (fmax lo (min_position l), fmin hi (max_position l))
    else (lo, hi) in
  let cmd := saturate (j_cmd j) lo hi in
  Some (mkPosSoft l s cmd, set_command j cmd).

(** joint_limits_interface.h:246-248 [reset]. *)
Definition pos_soft_reset (h : pos_soft) : pos_soft := mkPosSoft (pf_limits h) (pf_soft h) (nan A).

(** ** EffortJointSaturationHandle *)

(** joint_limits_interface.h:263-277: the constructor; [None]: the exception is thrown. *)
Definition eff_sat_make (l : limits) : option limits :=
  if negb (has_velocity_limits l) then None
  else if negb (has_effort_limits l) then None else Some l.

(** joint_limits_interface.h:285-306 [enforceLimits]; the handle has no state but its limits. *)
Definition eff_sat_enforce (l : limits) (j : joint) (dt : F) : joint :=
  let lo := opp A (max_effort l) in
  let hi := max_effort l in
  let '(lo, hi) :=
    if has_position_limits l then
      if ltb A (j_pos j) (min_position l) then (zero A, hi)
      else if ltb A (max_position l) (j_pos j) then (lo, zero A) else (lo, hi)
    else (lo, hi) in
  let '(lo, hi) :=
    if ltb A (j_vel j) (opp A (max_velocity l)) then (zero A, hi)
    else if ltb A (max_velocity l) (j_vel j) then (lo, zero A) else (lo, hi) in
  set_command j (saturate (j_cmd j) lo hi).

(** ** EffortJointSoftLimitsHandle *)

(** joint_limits_interface.h:316-398: members. *)
Record eff_soft := mkEffSoft { ef_limits : limits; ef_soft : soft_limits }.

(** joint_limits_interface.h:321-338: the constructor; [None]: the exception is thrown. *)
Definition eff_soft_make (l : limits) (s : soft_limits) : option eff_soft :=
  if negb (has_velocity_limits l) then None
  else if negb (has_effort_limits l) then None else Some (mkEffSoft l s).

(** joint_limits_interface.h:348-392 [enforceLimits]. *)
Definition eff_soft_enforce (h : eff_soft) (j : joint) (dt : F) : joint :=
  let l := ef_limits h in
  let s := ef_soft h in
  let '(vlo, vhi) :=
    if has_position_limits l then
      (soft_vel s (max_velocity l) (j_pos j) (soft_min s),
       soft_vel s (max_velocity l) (j_pos j) (soft_max s))
    else (opp A (max_velocity l), max_velocity l) in
  let elo := saturate (mul A (opp A (k_velocity s)) (sub A (j_vel j) vlo))
               (opp A (max_effort l)) (max_effort l) in
  let ehi := saturate (mul A (opp A (k_velocity s)) (sub A (j_vel j) vhi))
               (opp A (max_effort l)) (max_effort l) in
  set_command j (saturate (j_cmd j) elo ehi).

(** ** VelocityJointSaturationHandle *)

(** joint_limits_interface.h:402-462: members. *)
Record vel_sat := mkVelSat { vs_limits : limits; vs_prev : F }.

(** joint_limits_interface.h:407-416: the constructor; [prev_cmd_] starts as 0.0 (461). *)
Definition vel_sat_make (l : limits) : option vel_sat :=
  if has_velocity_limits l then Some (mkVelSat l (zero A)) else None.

(** joint_limits_interface.h:425-455 [enforceLimits]; [None]: the assertion of 433 fails. *)
Definition vel_sat_enforce (h : vel_sat) (j : joint) (dt : F) : option (vel_sat * joint) :=
  let l := vs_limits h in
  let fin lo hi :=
    let cmd := saturate (j_cmd j) lo hi in
    Some (mkVelSat l cmd, set_command j cmd) in
  if has_acceleration_limits l then
    if negb (ltb A (zero A) dt) then None else
    fin (fmax (sub A (vs_prev h) (mul A (max_acceleration l) dt)) (opp A (max_velocity l)))
        (fmin (add A (vs_prev h) (mul A (max_acceleration l) dt)) (max_velocity l))
  else fin (opp A (max_velocity l)) (max_velocity l).

(** ** VelocityJointSoftLimitsHandle *)

(** joint_limits_interface.h:465-524: members. *)
Record vel_soft := mkVelSoft { vf_limits : limits; vf_soft : soft_limits; vf_max : F }.

(** joint_limits_interface.h:468-478: the constructor. *)
Definition vel_soft_make (l : limits) (s : soft_limits) : vel_soft :=
  mkVelSoft l s (if has_velocity_limits l then max_velocity l else maxnum A).

(** joint_limits_interface.h:488-517 [enforceLimits]. *)
Definition vel_soft_enforce (h : vel_soft) (j : joint) (dt : F) : joint :=
  let l := vf_limits h in
  let s := vf_soft h in
  let '(lo, hi) :=
    if has_position_limits l then
      (soft_vel s (vf_max h) (j_pos j) (soft_min s), soft_vel s (vf_max h) (j_pos j) (soft_max s))
    else (opp A (vf_max h), vf_max h) in
  let '(lo, hi) :=
    if has_acceleration_limits l then
      (fmax (sub A (j_vel j) (mul A (max_acceleration l) dt)) lo,
       fmin (add A (j_vel j) (mul A (max_acceleration l) dt)) hi)
    else (lo, hi) in
  set_command j (saturate (j_cmd j) lo hi).

End Handles.

Arguments mkLimits {A}. Arguments mkSoft {A}. Arguments mkJoint {A}.
Arguments min_position {A}. Arguments max_position {A}. Arguments max_velocity {A}.
Arguments max_acceleration {A}. Arguments max_jerk {A}. Arguments max_effort {A}.
Arguments has_position_limits {A}. Arguments has_velocity_limits {A}.
Arguments has_acceleration_limits {A}. Arguments has_jerk_limits {A}.
Arguments has_effort_limits {A}. Arguments angle_wraparound {A}.
Arguments soft_min {A}. Arguments soft_max {A}. Arguments k_position {A}. Arguments k_velocity {A}.
Arguments j_pos {A}. Arguments j_vel {A}. Arguments j_cmd {A}. Arguments set_command {A}.
Arguments mkPosSat {A}. Arguments ps_limits {A}. Arguments ps_min {A}. Arguments ps_max {A}.
Arguments ps_prev {A}. Arguments mkPosSoft {A}. Arguments pf_limits {A}. Arguments pf_soft {A}.
Arguments pf_prev {A}. Arguments mkEffSoft {A}. Arguments ef_limits {A}. Arguments ef_soft {A}.
Arguments mkVelSat {A}. Arguments vs_limits {A}. Arguments vs_prev {A}.
Arguments mkVelSoft {A}. Arguments vf_limits {A}. Arguments vf_soft {A}. Arguments vf_max {A}.
Arguments fmax {A}. Arguments fmin {A}. Arguments saturate {A}.
Arguments pos_sat_make {A}. Arguments pos_sat_enforce {A}. Arguments pos_sat_reset {A}.
Arguments pos_soft_make {A}. Arguments pos_soft_enforce {A}. Arguments pos_soft_reset {A}.
Arguments soft_vel {A}. Arguments eff_sat_make {A}. Arguments eff_sat_enforce {A}.
Arguments eff_soft_make {A}. Arguments eff_soft_enforce {A}. Arguments vel_sat_make {A}.
Arguments vel_sat_enforce {A}. Arguments vel_soft_make {A}. Arguments vel_soft_enforce {A}.

(* ---------------------------------------------------------------- the interfaces *)

Section Interface.
(** A handle type with its two functions: what enforceLimits and reset of one handle do to the
    handle and to the joint it points to ([None]: an assertion fails and the process ends). *)
Context {A : arith} {H : Type}.
Context (enf : H -> joint A -> num A -> option (H * joint A)).
Context (rst : H -> H).

(** A registered limit handle: its state and which joint its joint handle points to
    (joint_limits_interface.h:122-126, 251-255 and so on). *)
Record lim_handle := mkLim { lh_state : H; lh_joint : nat }.

(** joint_limits_interface.h:536: the resource map of a JointLimitsInterface
    (resource_manager.h:147-148). *)
Definition lim_iface := smap lim_handle.
(** The joint data all the handles point into (joint_state_interface.h:215-220, joint_command_interface.h:65). *)
Definition joints := nat -> joint A.

(** Update of one joint in the joint data (joint_command_interface.h:60). *)
Definition set_joint (js : joints) (n : nat) (j : joint A) : joints :=
  fun m => if Nat.eqb m n then j else js m.

(** resource_manager.h:93-106 [registerHandle] of a limit handle; the name is that of
    the joint handle (joint_limits_interface.h:84). *)
Definition lim_register (m : lim_iface) (n : string) (h : lim_handle) : lim_iface := sset n h m.

(** joint_limits_interface.h:539-550 [getHandle], which returns a copy;
    [None]: JointLimitsInterfaceException is thrown. *)
Definition lim_get (m : lim_iface) (n : string) : option lim_handle := sfind n m.

(** joint_limits_interface.h:555-561 [enforceLimits]: every handle, in map order. *)
Fixpoint lim_enforce (m : lim_iface) (js : joints) (dt : num A) : option (lim_iface * joints) :=
  match m with
  | [] => Some ([], js)
  | (n, h) :: m' =>
      match enf (lh_state h) (js (lh_joint h)) dt with
      | None => None
      | Some (s, j) =>
          match lim_enforce m' (set_joint js (lh_joint h) j) dt with
          | None => None
          | Some (m'', js') => Some ((n, mkLim s (lh_joint h)) :: m'', js')
          end
      end
  end.

(** joint_limits_interface.h:571-577, 587-593 [reset]. *)
Definition lim_reset (m : lim_iface) : lim_iface :=
  map (fun p => (fst p, mkLim (rst (lh_state (snd p))) (lh_joint (snd p)))) m.
End Interface.
Arguments lim_handle : clear implicits.
Arguments lim_iface : clear implicits.
Arguments joints : clear implicits.

(* ---------------------------------------------------------------- joint_limits_rosparam.h *)

Section Sources.
Context {A : arith}.
Notation F := (num A).

(** A value on the parameter server, by how ros::NodeHandle::getParam reads it: as a bool,
    as a number (getParam of a double also accepts an integer), or anything else
    (joint_limits_rosparam.h:98-161, 217-224). *)
Inductive pvalue := PBool (b : bool) | PNum (x : F) | POther.

(** The parameters in the namespace joint_limits/<joint>, by name (joint_limits_rosparam.h:79-94, 198-213). *)
Definition params := string -> option pvalue.

(** ros::NodeHandle::getParam into a bool; [None]: it returns false
    (joint_limits_rosparam.h:98, 110, 118, 131, 144, 157, 217). *)
Definition get_bool (p : params) (n : string) : option bool :=
  match p n with Some (PBool b) => Some b | _ => None end.
(** ros::NodeHandle::getParam into a double; [None]: it returns false
    (joint_limits_rosparam.h:102, 122, 135, 148, 161, 221-224). *)
Definition get_num (p : params) (n : string) : option F :=
  match p n with Some (PNum x) => Some x | _ => None end.
(** ros::NodeHandle::hasParam (joint_limits_rosparam.h:219). *)
Definition has_param (p : params) (n : string) : bool :=
  match p n with Some _ => true | None => false end.

(** Updates of single members of JointLimits (joint_limits.h:36-51). *)
Definition with_pos (l : limits A) (h : bool) (lo hi : F) : limits A :=
  mkLimits lo hi (max_velocity l) (max_acceleration l) (max_jerk l) (max_effort l)
    h (has_velocity_limits l) (has_acceleration_limits l) (has_jerk_limits l)
    (has_effort_limits l) (angle_wraparound l).
(** As above (joint_limits.h:50). *)
Definition with_wrap (l : limits A) (w : bool) : limits A :=
  mkLimits (min_position l) (max_position l) (max_velocity l) (max_acceleration l) (max_jerk l)
    (max_effort l) (has_position_limits l) (has_velocity_limits l) (has_acceleration_limits l)
    (has_jerk_limits l) (has_effort_limits l) w.
(** As above (joint_limits.h:40, 46). *)
Definition with_vel (l : limits A) (h : bool) (v : F) : limits A :=
  mkLimits (min_position l) (max_position l) v (max_acceleration l) (max_jerk l) (max_effort l)
    (has_position_limits l) h (has_acceleration_limits l) (has_jerk_limits l)
    (has_effort_limits l) (angle_wraparound l).
(** As above (joint_limits.h:41, 47). *)
Definition with_acc (l : limits A) (h : bool) (v : F) : limits A :=
  mkLimits (min_position l) (max_position l) (max_velocity l) v (max_jerk l) (max_effort l)
    (has_position_limits l) (has_velocity_limits l) h (has_jerk_limits l)
    (has_effort_limits l) (angle_wraparound l).
(** As above (joint_limits.h:42, 48). *)
Definition with_jerk (l : limits A) (h : bool) (v : F) : limits A :=
  mkLimits (min_position l) (max_position l) (max_velocity l) (max_acceleration l) v (max_effort l)
    (has_position_limits l) (has_velocity_limits l) (has_acceleration_limits l) h
    (has_effort_limits l) (angle_wraparound l).
(** As above (joint_limits.h:43, 49). *)
Definition with_eff (l : limits A) (h : bool) (v : F) : limits A :=
  mkLimits (min_position l) (max_position l) (max_velocity l) (max_acceleration l) (max_jerk l) v
    (has_position_limits l) (has_velocity_limits l) (has_acceleration_limits l) (has_jerk_limits l)
    h (angle_wraparound l).

(** joint_limits_rosparam.h:97-114: the position limits and angle_wraparound. *)
Definition read_pos (p : params) (l : limits A) : limits A :=
  match get_bool p "has_position_limits" with
  | None => l
  | Some h =>
      let l := if h then l else with_pos l false (min_position l) (max_position l) in
      let l := if h then
                 match get_num p "min_position", get_num p "max_position" with
                 | Some lo, Some hi => with_pos l true lo hi
                 | _, _ => l
                 end
               else l in
      if h then l else
      match get_bool p "angle_wraparound" with Some w => with_wrap l w | None => l end
  end.

(** joint_limits_rosparam.h:117-127, 130-140, 143-153, 156-166: four blocks of the same shape,
    [set] being the update of the members concerned and [old] the value held before. *)
Definition read_one (p : params) (flag value : string) (set : bool -> F -> limits A) (old : F)
  (l : limits A) : limits A :=
  match get_bool p flag with
  | None => l
  | Some false => set false old
  | Some true => match get_num p value with Some v => set true v | None => l end
  end.

(** joint_limits_rosparam.h:75-169 [getJointLimits].  [ns] is what the parameter server holds
    under joint_limits/<joint>; [None] there: no such parameter, or the name is not a valid
    graph name (InvalidNameException). *)
Definition rosparam_limits (ns : option params) (l : limits A) : bool * limits A :=
  match ns with
  | None => (false, l)
  | Some p =>
      let l := read_pos p l in
      let l := read_one p "has_velocity_limits" "max_velocity" (with_vel l) (max_velocity l) l in
      let l := read_one p "has_acceleration_limits" "max_acceleration" (with_acc l)
                 (max_acceleration l) l in
      let l := read_one p "has_jerk_limits" "max_jerk" (with_jerk l) (max_jerk l) l in
      let l := read_one p "has_effort_limits" "max_effort" (with_eff l) (max_effort l) l in
      (true, l)
  end.

(** getParam into a member: the member is left as it is if the parameter is not a number
    (joint_limits_rosparam.h:221-224). *)
Definition get_into (p : params) (n : string) (old : F) : F :=
  match get_num p n with Some x => x | None => old end.

(** joint_limits_rosparam.h:194-230 [getSoftJointLimits]; the results of the four getParam
    calls (221-224) are not looked at. *)
Definition rosparam_soft (ns : option params) (s : soft_limits A) : bool * soft_limits A :=
  match ns with
  | None => (false, s)
  | Some p =>
      match get_bool p "has_soft_limits" with
      | Some true =>
          if has_param p "k_position" && has_param p "k_velocity" &&
             has_param p "soft_lower_limit" && has_param p "soft_upper_limit"
          then (true, mkSoft (get_into p "soft_lower_limit" (soft_min s))
                        (get_into p "soft_upper_limit" (soft_max s))
                        (get_into p "k_position" (k_position s))
                        (get_into p "k_velocity" (k_velocity s)))
          else (false, s)
      | _ => (false, s)
      end
  end.

(* ---------------------------------------------------------------- joint_limits_urdf.h *)

(** urdf::Joint::type (urdf_model/joint.h). *)
Inductive jtype := REVOLUTE | CONTINUOUS | PRISMATIC | FIXED | FLOATING | PLANAR | UNKNOWN.
(** urdf::JointLimits (urdf_model/joint.h, as read at joint_limits_urdf.h:58-59, 68, 73). *)
Record urdf_lim := mkULim { ul_lower : F; ul_upper : F; ul_velocity : F; ul_effort : F }.
(** urdf::JointSafety (urdf_model/joint.h, as read at joint_limits_urdf.h:91-94). *)
Record urdf_safety := mkUSafe { us_lower : F; us_upper : F; us_kpos : F; us_kvel : F }.
(** urdf::Joint as used here: type, limits and safety (null pointers: [None]) (joint_limits_urdf.h:50, 55, 62, 86). *)
Record urdf_joint := mkUJoint { uj_type : jtype; uj_limits : option urdf_lim;
                                uj_safety : option urdf_safety }.

(** joint_limits_urdf.h:55. *)
Definition positional (t : jtype) : bool :=
  match t with REVOLUTE | PRISMATIC => true | _ => false end.

(** joint_limits_urdf.h:48-76 [getJointLimits]; the joint pointer may be null. *)
Definition urdf_limits (uj : option urdf_joint) (l : limits A) : bool * limits A :=
  match uj with
  | None => (false, l)
  | Some u =>
      match uj_limits u with
      | None => (false, l)
      | Some ul =>
          let hp := positional (uj_type u) in
          let l := if hp then with_pos l true (ul_lower ul) (ul_upper ul)
                   else with_pos l false (min_position l) (max_position l) in
          let l := if negb hp && match uj_type u with CONTINUOUS => true | _ => false end
                   then with_wrap l true else l in
          let l := with_vel l true (ul_velocity ul) in
          let l := with_acc l false (max_acceleration l) in
          (true, with_eff l true (ul_effort ul))
      end
  end.

(** joint_limits_urdf.h:84-97 [getSoftJointLimits]. *)
Definition urdf_soft (uj : option urdf_joint) (s : soft_limits A) : bool * soft_limits A :=
  match uj with
  | Some u =>
      match uj_safety u with
      | Some us => (true, mkSoft (us_lower us) (us_upper us) (us_kpos us) (us_kvel us))
      | None => (false, s)
      end
  | None => (false, s)
  end.

End Sources.
Arguments pvalue : clear implicits.
Arguments params : clear implicits.
Arguments urdf_joint : clear implicits.
Arguments urdf_lim : clear implicits.
Arguments urdf_safety : clear implicits.
