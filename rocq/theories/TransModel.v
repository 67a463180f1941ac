(** Model of the transmissions (transmission_interface/include/transmission_interface/
    simple_transmission.h, differential_transmission.h, four_bar_linkage_transmission.h)
    and of the handles and interfaces that propagate them (transmission_interface.h).

    Written over a dictionary of floating point operations, like the joint limit
    handles, and over an explicit memory: the data structures hold pointers, so that
    null pointers, missing vectors, wrong sizes and aliasing are all visible. *)
From Verif Require Export LimModel.

(** The arithmetic of the joint limit handles plus division, [0.0 == x] and the
    literal [2.0], as used in simple_transmission.h:186-270,
    differential_transmission.h:244-381 and four_bar_linkage_transmission.h:224-355. *)
Record darith := mkDarith {
  base :> arith;
  div : num base -> num base -> num base;
  is_zero : num base -> bool;
  two : num base
}.

(** Outcome of running a piece of code: a result, a failed [assert], an access outside
    a vector or through a null pointer, or a division by zero (undefined behaviour in
    C++; an infinity or NaN with IEEE 754).  Compiled with NDEBUG the assertions
    vanish and what is [Assertion] here is an invalid access there (simple_transmission.h:197-270 and the other two). *)
Inductive res (T : Type) := Ok (x : T) | Assertion | Invalid | DivZero.
Arguments Ok {T}. Arguments Assertion {T}. Arguments Invalid {T}. Arguments DivZero {T}.

(** Sequencing; not code of its own (as in simple_transmission.h:200-203). *)
Definition bind {T U} (r : res T) (k : T -> res U) : res U :=
  match r with Ok x => k x | Assertion => Assertion | Invalid => Invalid | DivZero => DivZero end.
Notation "x <- r ;; k" := (bind r (fun x => k)) (at level 61, r at next level, right associativity).

(** A [double*]: the address of a variable (transmission.h:52-56, 65-69). *)
Definition addr := nat.
(** transmission.h:52-56, 65-69: [std::vector<double*>]; [None] is the null pointer. *)
Definition vec := list (option addr).

(** transmission.h:50-57 [ActuatorData] and 63-70 [JointData], which have the same members. *)
Record data := mkData {
  d_position : vec; d_velocity : vec; d_effort : vec;
  d_absolute_position : vec; d_torque_sensor : vec }.

Section Transmissions.
Context (A : darith).
Notation F := (num A).

(** Content of all variables (the variables transmission.h:52-56, 65-69 points to). *)
Definition mem := addr -> F.
(** Assignment through a pointer (for example simple_transmission.h:203). *)
Definition upd (m : mem) (a : addr) (x : F) : mem := fun b => if Nat.eqb b a then x else m b.

(** [assert(b)] (for example simple_transmission.h:200). *)
Definition check (b : bool) : res unit := if b then Ok tt else Assertion.
(** [v[i]] on a vector; outside its bounds the behaviour is undefined (for example simple_transmission.h:201). *)
Definition at_ {T} (v : list T) (i : nat) : res T :=
  match nth_error v i with Some x => Ok x | None => Invalid end.
(** [assert(v[i] && ...)]: all pointers are valid, evaluated from the left (for example simple_transmission.h:201). *)
Fixpoint check_ptrs (l : list (vec * nat)) : res unit :=
  match l with
  | [] => Ok tt
  | (v, i) :: l' => p <- at_ v i ;; match p with None => Assertion | Some _ => check_ptrs l' end
  end.
(** [*v[i]] as a value (for example simple_transmission.h:203). *)
Definition load (m : mem) (v : vec) (i : nat) : res F :=
  p <- at_ v i ;; match p with None => Invalid | Some a => Ok (m a) end.
(** [*v[i] = x] (for example simple_transmission.h:203). *)
Definition store (m : mem) (v : vec) (i : nat) (x : F) : res mem :=
  p <- at_ v i ;; match p with None => Invalid | Some a => Ok (upd m a x) end.
(** [x / y] (for example simple_transmission.h:212). *)
Definition divide (x y : F) : res F := if is_zero A y then DivZero else Ok (div A x y).

Notation "x + y" := (add A x y). Notation "x - y" := (sub A x y). Notation "x * y" := (mul A x y).

(** The three implementations of Transmission with their members:
    simple_transmission.h:182-183, differential_transmission.h:232-235,
    four_bar_linkage_transmission.h:219-221.  Other implementations (third parties
    may derive from Transmission) are not modelled. *)
Inductive transmission :=
| Simple (reduction offset : F)
| Differential (ar jr off : list F) (ignore_abs : bool)
| FourBar (ar jr off : list F).

(** ** SimpleTransmission *)

(** simple_transmission.h:186-195, the constructor; [None]: it throws. *)
Definition make_simple (reduction offset : F) : option transmission :=
  if is_zero A reduction then None else Some (Simple reduction offset).

(** simple_transmission.h:197-204 [actuatorToJointEffort]. *)
Definition simple_a2j_effort (r : F) (act jnt : data) (m : mem) : res mem :=
  _ <- check ((List.length (d_effort act) =? 1)%nat && (List.length (d_effort jnt) =? 1)%nat) ;;
  _ <- check_ptrs [(d_effort act, 0); (d_effort jnt, 0)] ;;
  x <- load m (d_effort act) 0 ;;
  store m (d_effort jnt) 0 (x * r).

(** simple_transmission.h:206-213 [actuatorToJointVelocity]. *)
Definition simple_a2j_velocity (r : F) (act jnt : data) (m : mem) : res mem :=
  _ <- check ((List.length (d_velocity act) =? 1)%nat && (List.length (d_velocity jnt) =? 1)%nat) ;;
  _ <- check_ptrs [(d_velocity act, 0); (d_velocity jnt, 0)] ;;
  x <- load m (d_velocity act) 0 ;; y <- divide x r ;;
  store m (d_velocity jnt) 0 y.

(** simple_transmission.h:215-222 [actuatorToJointPosition]. *)
Definition simple_a2j_position (r off : F) (act jnt : data) (m : mem) : res mem :=
  _ <- check ((List.length (d_position act) =? 1)%nat && (List.length (d_position jnt) =? 1)%nat) ;;
  _ <- check_ptrs [(d_position act, 0); (d_position jnt, 0)] ;;
  x <- load m (d_position act) 0 ;; y <- divide x r ;;
  store m (d_position jnt) 0 (y + off).

(** simple_transmission.h:224-232 [actuatorToJointAbsolutePosition]. *)
Definition simple_a2j_absolute (r off : F) (act jnt : data) (m : mem) : res mem :=
  _ <- check ((List.length (d_absolute_position act) =? 1)%nat && (List.length (d_absolute_position jnt) =? 1)%nat) ;;
  _ <- check_ptrs [(d_absolute_position act, 0); (d_absolute_position jnt, 0)] ;;
  x <- load m (d_absolute_position act) 0 ;; y <- divide x r ;;
  store m (d_absolute_position jnt) 0 (y + off).

(** simple_transmission.h:234-242 [actuatorToJointTorqueSensor]. *)
Definition simple_a2j_torque (r : F) (act jnt : data) (m : mem) : res mem :=
  _ <- check ((List.length (d_torque_sensor act) =? 1)%nat && (List.length (d_torque_sensor jnt) =? 1)%nat) ;;
  _ <- check_ptrs [(d_torque_sensor act, 0); (d_torque_sensor jnt, 0)] ;;
  x <- load m (d_torque_sensor act) 0 ;;
  store m (d_torque_sensor jnt) 0 (x * r).

(** simple_transmission.h:245-252 [jointToActuatorEffort]. *)
Definition simple_j2a_effort (r : F) (jnt act : data) (m : mem) : res mem :=
  _ <- check ((List.length (d_effort act) =? 1)%nat && (List.length (d_effort jnt) =? 1)%nat) ;;
  _ <- check_ptrs [(d_effort act, 0); (d_effort jnt, 0)] ;;
  x <- load m (d_effort jnt) 0 ;; y <- divide x r ;;
  store m (d_effort act) 0 y.

(** simple_transmission.h:254-261 [jointToActuatorVelocity]. *)
Definition simple_j2a_velocity (r : F) (jnt act : data) (m : mem) : res mem :=
  _ <- check ((List.length (d_velocity act) =? 1)%nat && (List.length (d_velocity jnt) =? 1)%nat) ;;
  _ <- check_ptrs [(d_velocity act, 0); (d_velocity jnt, 0)] ;;
  x <- load m (d_velocity jnt) 0 ;;
  store m (d_velocity act) 0 (x * r).

(** simple_transmission.h:263-270 [jointToActuatorPosition]. *)
Definition simple_j2a_position (r off : F) (jnt act : data) (m : mem) : res mem :=
  _ <- check ((List.length (d_position act) =? 1)%nat && (List.length (d_position jnt) =? 1)%nat) ;;
  _ <- check_ptrs [(d_position act, 0); (d_position jnt, 0)] ;;
  x <- load m (d_position jnt) 0 ;;
  store m (d_position act) 0 ((x - off) * r).

(** ** DifferentialTransmission *)

(** differential_transmission.h:260-263 and four_bar_linkage_transmission.h:237-240:
    one of the four reductions is zero (evaluated after the sizes were checked). *)
Definition zero_reduction (ar jr : list F) : bool := existsb (is_zero A) (ar ++ jr).

(** differential_transmission.h:238-267, the constructors; [None]: it throws. *)
Definition make_differential (ar jr off : list F) (ignore_abs : bool) : option transmission :=
  if negb (List.length ar =? 2)%nat || negb (List.length jr =? 2)%nat || negb (List.length off =? 2)%nat then None
  else if zero_reduction ar jr then None
  else Some (Differential ar jr off ignore_abs).

(** [assert(numActuators() == a.size() && numJoints() == j.size())] followed by
    [assert(a[0] && a[1] && j[0] && j[1])], as in every map of the two-joint
    transmissions (e.g. differential_transmission.h:272-273) but one. *)
Definition checks2 (a j : vec) : res unit :=
  _ <- check ((List.length a =? 2)%nat && (List.length j =? 2)%nat) ;;
  check_ptrs [(a, 0); (a, 1); (j, 0); (j, 1)].

(** differential_transmission.h:269-280 [actuatorToJointEffort]. *)
Definition diff_a2j_effort (ar jr : list F) (act jnt : data) (m : mem) : res mem :=
  _ <- checks2 (d_effort act) (d_effort jnt) ;;
  j0 <- at_ jr 0 ;; x <- load m (d_effort act) 0 ;; a0 <- at_ ar 0 ;; y <- load m (d_effort act) 1 ;; a1 <- at_ ar 1 ;;
  m <- store m (d_effort jnt) 0 (j0 * (x * a0 + y * a1)) ;;
  j1 <- at_ jr 1 ;; x <- load m (d_effort act) 0 ;; y <- load m (d_effort act) 1 ;;
  store m (d_effort jnt) 1 (j1 * (x * a0 - y * a1)).

(** differential_transmission.h:282-293 [actuatorToJointVelocity]. *)
Definition diff_a2j_velocity (ar jr : list F) (act jnt : data) (m : mem) : res mem :=
  _ <- checks2 (d_velocity act) (d_velocity jnt) ;;
  a0 <- at_ ar 0 ;; a1 <- at_ ar 1 ;; j0 <- at_ jr 0 ;; j1 <- at_ jr 1 ;;
  x <- load m (d_velocity act) 0 ;; y <- load m (d_velocity act) 1 ;;
  p <- divide x a0 ;; q <- divide y a1 ;; s <- divide (p + q) (two A * j0) ;;
  m <- store m (d_velocity jnt) 0 s ;;
  x <- load m (d_velocity act) 0 ;; y <- load m (d_velocity act) 1 ;;
  p <- divide x a0 ;; q <- divide y a1 ;; s <- divide (p - q) (two A * j1) ;;
  store m (d_velocity jnt) 1 s.

(** differential_transmission.h:295-306 [actuatorToJointPosition]. *)
Definition diff_a2j_position (ar jr off : list F) (act jnt : data) (m : mem) : res mem :=
  _ <- checks2 (d_position act) (d_position jnt) ;;
  a0 <- at_ ar 0 ;; a1 <- at_ ar 1 ;; j0 <- at_ jr 0 ;; j1 <- at_ jr 1 ;; o0 <- at_ off 0 ;; o1 <- at_ off 1 ;;
  x <- load m (d_position act) 0 ;; y <- load m (d_position act) 1 ;;
  p <- divide x a0 ;; q <- divide y a1 ;; s <- divide (p + q) (two A * j0) ;;
  m <- store m (d_position jnt) 0 (s + o0) ;;
  x <- load m (d_position act) 0 ;; y <- load m (d_position act) 1 ;;
  p <- divide x a0 ;; q <- divide y a1 ;; s <- divide (p - q) (two A * j1) ;;
  store m (d_position jnt) 1 (s + o1).

(** differential_transmission.h:308-327 [actuatorToJointAbsolutePosition]; the second
    assertion looks at [act_data.position[0]]. *)
Definition diff_a2j_absolute (ar jr off : list F) (ign : bool) (act jnt : data) (m : mem) : res mem :=
  _ <- check ((List.length (d_absolute_position act) =? 2)%nat && (List.length (d_absolute_position jnt) =? 2)%nat) ;;
  _ <- check_ptrs [(d_position act, 0); (d_absolute_position act, 1);
                   (d_absolute_position jnt, 0); (d_absolute_position jnt, 1)] ;;
  if ign then
    y <- load m (d_absolute_position act) 1 ;;
    m <- store m (d_absolute_position jnt) 0 y ;;
    x <- load m (d_absolute_position act) 0 ;;
    store m (d_absolute_position jnt) 1 x
  else
    a0 <- at_ ar 0 ;; a1 <- at_ ar 1 ;; j0 <- at_ jr 0 ;; j1 <- at_ jr 1 ;; o0 <- at_ off 0 ;; o1 <- at_ off 1 ;;
    x <- load m (d_absolute_position act) 0 ;; y <- load m (d_absolute_position act) 1 ;;
    p <- divide x a0 ;; q <- divide y a1 ;; s <- divide (p + q) (two A * j0) ;;
    m <- store m (d_absolute_position jnt) 0 (s + o0) ;;
    x <- load m (d_absolute_position act) 0 ;; y <- load m (d_absolute_position act) 1 ;;
    p <- divide x a0 ;; q <- divide y a1 ;; s <- divide (p - q) (two A * j1) ;;
    store m (d_absolute_position jnt) 1 (s + o1).

(** differential_transmission.h:329-340 [actuatorToJointTorqueSensor]. *)
Definition diff_a2j_torque (ar jr : list F) (act jnt : data) (m : mem) : res mem :=
  _ <- checks2 (d_torque_sensor act) (d_torque_sensor jnt) ;;
  j0 <- at_ jr 0 ;; x <- load m (d_torque_sensor act) 0 ;; a0 <- at_ ar 0 ;; y <- load m (d_torque_sensor act) 1 ;; a1 <- at_ ar 1 ;;
  m <- store m (d_torque_sensor jnt) 0 (j0 * (x * a0 + y * a1)) ;;
  j1 <- at_ jr 1 ;; x <- load m (d_torque_sensor act) 0 ;; y <- load m (d_torque_sensor act) 1 ;;
  store m (d_torque_sensor jnt) 1 (j1 * (x * a0 - y * a1)).

(** differential_transmission.h:342-353 [jointToActuatorEffort]. *)
Definition diff_j2a_effort (ar jr : list F) (jnt act : data) (m : mem) : res mem :=
  _ <- checks2 (d_effort act) (d_effort jnt) ;;
  a0 <- at_ ar 0 ;; a1 <- at_ ar 1 ;; j0 <- at_ jr 0 ;; j1 <- at_ jr 1 ;;
  x <- load m (d_effort jnt) 0 ;; y <- load m (d_effort jnt) 1 ;;
  p <- divide x j0 ;; q <- divide y j1 ;; s <- divide (p + q) (two A * a0) ;;
  m <- store m (d_effort act) 0 s ;;
  x <- load m (d_effort jnt) 0 ;; y <- load m (d_effort jnt) 1 ;;
  p <- divide x j0 ;; q <- divide y j1 ;; s <- divide (p - q) (two A * a1) ;;
  store m (d_effort act) 1 s.

(** differential_transmission.h:355-366 [jointToActuatorVelocity]. *)
Definition diff_j2a_velocity (ar jr : list F) (jnt act : data) (m : mem) : res mem :=
  _ <- checks2 (d_velocity act) (d_velocity jnt) ;;
  a0 <- at_ ar 0 ;; a1 <- at_ ar 1 ;; j0 <- at_ jr 0 ;; j1 <- at_ jr 1 ;;
  x <- load m (d_velocity jnt) 0 ;; y <- load m (d_velocity jnt) 1 ;;
  m <- store m (d_velocity act) 0 ((x * j0 + y * j1) * a0) ;;
  x <- load m (d_velocity jnt) 0 ;; y <- load m (d_velocity jnt) 1 ;;
  store m (d_velocity act) 1 ((x * j0 - y * j1) * a1).

(** differential_transmission.h:368-381 [jointToActuatorPosition]: the joint positions are read once. *)
Definition diff_j2a_position (ar jr off : list F) (jnt act : data) (m : mem) : res mem :=
  _ <- checks2 (d_position act) (d_position jnt) ;;
  o0 <- at_ off 0 ;; o1 <- at_ off 1 ;;
  x <- load m (d_position jnt) 0 ;; y <- load m (d_position jnt) 1 ;;
  let x := x - o0 in let y := y - o1 in
  a0 <- at_ ar 0 ;; a1 <- at_ ar 1 ;; j0 <- at_ jr 0 ;; j1 <- at_ jr 1 ;;
  m <- store m (d_position act) 0 ((x * j0 + y * j1) * a0) ;;
  store m (d_position act) 1 ((x * j0 - y * j1) * a1).

(** ** FourBarLinkageTransmission *)

(** four_bar_linkage_transmission.h:224-244, the constructor; [None]: it throws. *)
Definition make_four_bar (ar jr off : list F) : option transmission :=
  if negb (List.length ar =? 2)%nat || negb (List.length jr =? 2)%nat || negb (List.length off =? 2)%nat then None
  else if zero_reduction ar jr then None
  else Some (FourBar ar jr off).

(** four_bar_linkage_transmission.h:246-257 [actuatorToJointEffort]. *)
Definition four_a2j_effort (ar jr : list F) (act jnt : data) (m : mem) : res mem :=
  _ <- checks2 (d_effort act) (d_effort jnt) ;;
  a0 <- at_ ar 0 ;; a1 <- at_ ar 1 ;; j0 <- at_ jr 0 ;; j1 <- at_ jr 1 ;;
  x <- load m (d_effort act) 0 ;;
  m <- store m (d_effort jnt) 0 (j0 * (x * a0)) ;;
  x <- load m (d_effort act) 0 ;; y <- load m (d_effort act) 1 ;;
  store m (d_effort jnt) 1 (j1 * (y * a1 - x * a0 * j0)).

(** four_bar_linkage_transmission.h:259-270 [actuatorToJointVelocity]. *)
Definition four_a2j_velocity (ar jr : list F) (act jnt : data) (m : mem) : res mem :=
  _ <- checks2 (d_velocity act) (d_velocity jnt) ;;
  a0 <- at_ ar 0 ;; a1 <- at_ ar 1 ;; j0 <- at_ jr 0 ;; j1 <- at_ jr 1 ;;
  x <- load m (d_velocity act) 0 ;; s <- divide x (j0 * a0) ;;
  m <- store m (d_velocity jnt) 0 s ;;
  x <- load m (d_velocity act) 0 ;; y <- load m (d_velocity act) 1 ;;
  p <- divide y a1 ;; q <- divide x (j0 * a0) ;; s <- divide (p - q) j1 ;;
  store m (d_velocity jnt) 1 s.

(** four_bar_linkage_transmission.h:272-284 [actuatorToJointPosition]. *)
Definition four_a2j_position (ar jr off : list F) (act jnt : data) (m : mem) : res mem :=
  _ <- checks2 (d_position act) (d_position jnt) ;;
  a0 <- at_ ar 0 ;; a1 <- at_ ar 1 ;; j0 <- at_ jr 0 ;; j1 <- at_ jr 1 ;; o0 <- at_ off 0 ;; o1 <- at_ off 1 ;;
  x <- load m (d_position act) 0 ;; s <- divide x (j0 * a0) ;;
  m <- store m (d_position jnt) 0 (s + o0) ;;
  x <- load m (d_position act) 0 ;; y <- load m (d_position act) 1 ;;
  p <- divide y a1 ;; q <- divide x (j0 * a0) ;; s <- divide (p - q) j1 ;;
  store m (d_position jnt) 1 (s + o1).

(** four_bar_linkage_transmission.h:286-299 [actuatorToJointAbsolutePosition]. *)
Definition four_a2j_absolute (ar jr off : list F) (act jnt : data) (m : mem) : res mem :=
  _ <- checks2 (d_absolute_position act) (d_absolute_position jnt) ;;
  a0 <- at_ ar 0 ;; a1 <- at_ ar 1 ;; j0 <- at_ jr 0 ;; j1 <- at_ jr 1 ;; o0 <- at_ off 0 ;; o1 <- at_ off 1 ;;
  x <- load m (d_absolute_position act) 0 ;; s <- divide x (j0 * a0) ;;
  m <- store m (d_absolute_position jnt) 0 (s + o0) ;;
  x <- load m (d_absolute_position act) 0 ;; y <- load m (d_absolute_position act) 1 ;;
  p <- divide y a1 ;; q <- divide x (j0 * a0) ;; s <- divide (p - q) j1 ;;
  store m (d_absolute_position jnt) 1 (s + o1).

(** four_bar_linkage_transmission.h:301-313 [actuatorToJointTorqueSensor]. *)
Definition four_a2j_torque (ar jr : list F) (act jnt : data) (m : mem) : res mem :=
  _ <- checks2 (d_torque_sensor act) (d_torque_sensor jnt) ;;
  a0 <- at_ ar 0 ;; a1 <- at_ ar 1 ;; j0 <- at_ jr 0 ;; j1 <- at_ jr 1 ;;
  x <- load m (d_torque_sensor act) 0 ;;
  m <- store m (d_torque_sensor jnt) 0 (j0 * (x * a0)) ;;
  x <- load m (d_torque_sensor act) 0 ;; y <- load m (d_torque_sensor act) 1 ;;
  store m (d_torque_sensor jnt) 1 (j1 * (y * a1 - x * a0 * j0)).

(** four_bar_linkage_transmission.h:316-327 [jointToActuatorEffort]. *)
Definition four_j2a_effort (ar jr : list F) (jnt act : data) (m : mem) : res mem :=
  _ <- checks2 (d_effort act) (d_effort jnt) ;;
  a0 <- at_ ar 0 ;; a1 <- at_ ar 1 ;; j0 <- at_ jr 0 ;; j1 <- at_ jr 1 ;;
  x <- load m (d_effort jnt) 0 ;; s <- divide x (a0 * j0) ;;
  m <- store m (d_effort act) 0 s ;;
  x <- load m (d_effort jnt) 0 ;; y <- load m (d_effort jnt) 1 ;;
  p <- divide y j1 ;; s <- divide (x + p) a1 ;;
  store m (d_effort act) 1 s.

(** four_bar_linkage_transmission.h:329-340 [jointToActuatorVelocity]. *)
Definition four_j2a_velocity (ar jr : list F) (jnt act : data) (m : mem) : res mem :=
  _ <- checks2 (d_velocity act) (d_velocity jnt) ;;
  a0 <- at_ ar 0 ;; a1 <- at_ ar 1 ;; j0 <- at_ jr 0 ;; j1 <- at_ jr 1 ;;
  x <- load m (d_velocity jnt) 0 ;;
  m <- store m (d_velocity act) 0 (x * j0 * a0) ;;
  x <- load m (d_velocity jnt) 0 ;; y <- load m (d_velocity jnt) 1 ;;
  store m (d_velocity act) 1 ((x + y * j1) * a1).

(** four_bar_linkage_transmission.h:342-355 [jointToActuatorPosition]: the joint positions are read once. *)
Definition four_j2a_position (ar jr off : list F) (jnt act : data) (m : mem) : res mem :=
  _ <- checks2 (d_position act) (d_position jnt) ;;
  o0 <- at_ off 0 ;; o1 <- at_ off 1 ;;
  x <- load m (d_position jnt) 0 ;; y <- load m (d_position jnt) 1 ;;
  let x := x - o0 in let y := y - o1 in
  a0 <- at_ ar 0 ;; a1 <- at_ ar 1 ;; j0 <- at_ jr 0 ;; j1 <- at_ jr 1 ;;
  m <- store m (d_position act) 0 (x * j0 * a0) ;;
  store m (d_position act) 1 ((x + y * j1) * a1).

(** ** The virtual functions of Transmission (transmission.h:91-184) *)

(** simple_transmission.h:172, differential_transmission.h:222, four_bar_linkage_transmission.h:209 [numActuators]. *)
Definition num_actuators (t : transmission) : nat :=
  match t with Simple _ _ => 1 | Differential _ _ _ _ => 2 | FourBar _ _ _ => 2 end.
(** simple_transmission.h:173, differential_transmission.h:223, four_bar_linkage_transmission.h:210 [numJoints]. *)
Definition num_joints (t : transmission) : nat :=
  match t with Simple _ _ => 1 | Differential _ _ _ _ => 2 | FourBar _ _ _ => 2 end.
(** simple_transmission.h:174, differential_transmission.h:224, four_bar_linkage_transmission.h:211
    [hasActuatorToJointAbsolutePosition]. *)
Definition has_absolute (t : transmission) : bool := true.
(** simple_transmission.h:175, differential_transmission.h:225, four_bar_linkage_transmission.h:212
    [hasActuatorToJointTorqueSensor]. *)
Definition has_torque (t : transmission) : bool := true.

(** Virtual call [actuatorToJointEffort] (transmission.h:104). *)
Definition a2j_effort (t : transmission) (act jnt : data) (m : mem) : res mem :=
  match t with
  | Simple r _ => simple_a2j_effort r act jnt m
  | Differential ar jr _ _ => diff_a2j_effort ar jr act jnt m
  | FourBar ar jr _ => four_a2j_effort ar jr act jnt m
  end.
(** Virtual call [actuatorToJointVelocity] (transmission.h:115). *)
Definition a2j_velocity (t : transmission) (act jnt : data) (m : mem) : res mem :=
  match t with
  | Simple r _ => simple_a2j_velocity r act jnt m
  | Differential ar jr _ _ => diff_a2j_velocity ar jr act jnt m
  | FourBar ar jr _ => four_a2j_velocity ar jr act jnt m
  end.
(** Virtual call [actuatorToJointPosition] (transmission.h:126). *)
Definition a2j_position (t : transmission) (act jnt : data) (m : mem) : res mem :=
  match t with
  | Simple r o => simple_a2j_position r o act jnt m
  | Differential ar jr o _ => diff_a2j_position ar jr o act jnt m
  | FourBar ar jr o => four_a2j_position ar jr o act jnt m
  end.
(** Virtual call [actuatorToJointAbsolutePosition] (transmission.h:129). *)
Definition a2j_absolute (t : transmission) (act jnt : data) (m : mem) : res mem :=
  match t with
  | Simple r o => simple_a2j_absolute r o act jnt m
  | Differential ar jr o ign => diff_a2j_absolute ar jr o ign act jnt m
  | FourBar ar jr o => four_a2j_absolute ar jr o act jnt m
  end.
(** Virtual call [actuatorToJointTorqueSensor] (transmission.h:135). *)
Definition a2j_torque (t : transmission) (act jnt : data) (m : mem) : res mem :=
  match t with
  | Simple r _ => simple_a2j_torque r act jnt m
  | Differential ar jr _ _ => diff_a2j_torque ar jr act jnt m
  | FourBar ar jr _ => four_a2j_torque ar jr act jnt m
  end.
(** Virtual call [jointToActuatorEffort] (transmission.h:152). *)
Definition j2a_effort (t : transmission) (jnt act : data) (m : mem) : res mem :=
  match t with
  | Simple r _ => simple_j2a_effort r jnt act m
  | Differential ar jr _ _ => diff_j2a_effort ar jr jnt act m
  | FourBar ar jr _ => four_j2a_effort ar jr jnt act m
  end.
(** Virtual call [jointToActuatorVelocity] (transmission.h:163). *)
Definition j2a_velocity (t : transmission) (jnt act : data) (m : mem) : res mem :=
  match t with
  | Simple r _ => simple_j2a_velocity r jnt act m
  | Differential ar jr _ _ => diff_j2a_velocity ar jr jnt act m
  | FourBar ar jr _ => four_j2a_velocity ar jr jnt act m
  end.
(** Virtual call [jointToActuatorPosition] (transmission.h:174). *)
Definition j2a_position (t : transmission) (jnt act : data) (m : mem) : res mem :=
  match t with
  | Simple r o => simple_j2a_position r o jnt act m
  | Differential ar jr o _ => diff_j2a_position ar jr o jnt act m
  | FourBar ar jr o => four_j2a_position ar jr o jnt act m
  end.

(** ** Handles *)

(** transmission_interface.h:55-58: the members of TransmissionHandle. *)
Record handle := mkHandle {
  h_name : string; h_trans : transmission; h_act : data; h_jnt : data }.

(** [v.empty()] (transmission_interface.h:93-133). *)
Definition empty (v : vec) : bool := match v with [] => true | _ => false end.

(** transmission_interface.h:181-188 [hasValidPointers]. *)
Fixpoint valid_pointers (v : vec) : bool :=
  match v with [] => true | p :: v' => match p with None => false | Some _ => valid_pointers v' end end.

(** transmission_interface.h:70-178, the constructor of TransmissionHandle.  [None]: it
    throws TransmissionInterfaceException.  The checks are in the order of the code;
    which of them throws is not distinguished.  Lines 109-112 test the absolute
    positions a second time where the torque sensors are meant. *)
Definition make_handle (name : string) (trans : option transmission) (act jnt : data) : option handle :=
  match trans with
  | None => None
  | Some t =>
      if empty (d_position act) && empty (d_velocity act) && empty (d_effort act) &&
         empty (d_position jnt) && empty (d_velocity jnt) && empty (d_effort jnt) then None
      else if negb (empty (d_position act)) && negb (List.length (d_position act) =? num_actuators t)%nat then None
      else if negb (empty (d_velocity act)) && negb (List.length (d_velocity act) =? num_actuators t)%nat then None
      else if negb (empty (d_effort act)) && negb (List.length (d_effort act) =? num_actuators t)%nat then None
      else if negb (empty (d_absolute_position act)) && negb (List.length (d_absolute_position act) =? num_actuators t)%nat then None
      else if negb (empty (d_absolute_position act)) && negb (List.length (d_absolute_position act) =? num_actuators t)%nat then None
      else if negb (empty (d_position jnt)) && negb (List.length (d_position jnt) =? num_joints t)%nat then None
      else if negb (empty (d_velocity jnt)) && negb (List.length (d_velocity jnt) =? num_joints t)%nat then None
      else if negb (empty (d_effort jnt)) && negb (List.length (d_effort jnt) =? num_joints t)%nat then None
      else if negb (empty (d_absolute_position jnt)) && negb (List.length (d_absolute_position jnt) =? num_joints t)%nat then None
      else if negb (empty (d_torque_sensor jnt)) && negb (List.length (d_torque_sensor jnt) =? num_joints t)%nat then None
      else if negb (valid_pointers (d_position act)) then None
      else if negb (valid_pointers (d_velocity act)) then None
      else if negb (valid_pointers (d_effort act)) then None
      else if negb (empty (d_absolute_position act)) && negb (valid_pointers (d_absolute_position act)) then None
      else if negb (empty (d_torque_sensor act)) && negb (valid_pointers (d_torque_sensor act)) then None
      else if negb (valid_pointers (d_position jnt)) then None
      else if negb (valid_pointers (d_velocity jnt)) then None
      else if negb (valid_pointers (d_effort jnt)) then None
      else if negb (empty (d_absolute_position jnt)) && negb (valid_pointers (d_absolute_position jnt)) then None
      else if negb (empty (d_torque_sensor jnt)) && negb (valid_pointers (d_torque_sensor jnt)) then None
      else Some (mkHandle name t act jnt)
  end.

(** transmission_interface.h:194-364: the eight classes derived from TransmissionHandle. *)
Inductive hkind :=
| ActToJntState | ActToJntPosition | ActToJntVelocity | ActToJntEffort
| JntToActState | JntToActPosition | JntToActVelocity | JntToActEffort.

(** The [propagate] methods: transmission_interface.h:207-223, 241, 260, 279, 300-305, 324, 343, 362. *)
Definition propagate (k : hkind) (h : handle) (m : mem) : res mem :=
  let t := h_trans h in let act := h_act h in let jnt := h_jnt h in
  match k with
  | ActToJntState =>
      m <- a2j_position t act jnt m ;;
      m <- a2j_velocity t act jnt m ;;
      m <- a2j_effort t act jnt m ;;
      m <- (if negb (empty (d_absolute_position act)) && has_absolute t then a2j_absolute t act jnt m else Ok m) ;;
      (if negb (empty (d_torque_sensor act)) && has_torque t then a2j_torque t act jnt m else Ok m)
  | ActToJntPosition => a2j_position t act jnt m
  | ActToJntVelocity => a2j_velocity t act jnt m
  | ActToJntEffort => a2j_effort t act jnt m
  | JntToActState =>
      m <- j2a_position t jnt act m ;;
      m <- j2a_velocity t jnt act m ;;
      j2a_effort t jnt act m
  | JntToActPosition => j2a_position t jnt act m
  | JntToActVelocity => j2a_velocity t jnt act m
  | JntToActEffort => j2a_effort t jnt act m
  end.

(** hardware_interface/internal/resource_manager.h:93-106 [registerHandle] on a
    TransmissionInterface (transmission_interface.h:383): a handle with the name of a
    registered one replaces it. *)
Definition register_handle (h : handle) (i : smap handle) : smap handle := sset (h_name h) h i.

(** transmission_interface.h:404-410 [TransmissionInterface::propagate]: the handles in the order of the map. *)
Fixpoint propagate_all (k : hkind) (i : smap handle) (m : mem) : res mem :=
  match i with
  | [] => Ok m
  | (_, h) :: i' => m <- propagate k h m ;; propagate_all k i' m
  end.

End Transmissions.
