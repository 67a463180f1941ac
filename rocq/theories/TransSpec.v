(** What is claimed about transmissions (TransModel.v), in terms of the public API: the
    constructors, the maps, the handles, and the values of the variables pointed to. *)
From Coq Require Import QArith.
From Verif Require Import TransModel LimExact.

(** The five kinds of variables of a data structure (transmission.h:50-70). *)
Inductive quantity := Position | Velocity | Effort | AbsolutePosition | TorqueSensor.

(** The vector of pointers for a quantity. *)
Definition side (q : quantity) (d : data) : vec :=
  match q with
  | Position => d_position d | Velocity => d_velocity d | Effort => d_effort d
  | AbsolutePosition => d_absolute_position d | TorqueSensor => d_torque_sensor d
  end.

(** The quantities that are mapped in both directions. *)
Definition both_ways (q : quantity) : Prop := q = Position \/ q = Velocity \/ q = Effort.

Section Spec.
Context (A : darith).

(** Name of the actuator-to-joint map for a quantity (transmission.h:104-139). *)
Definition to_joint (q : quantity) : transmission A -> data -> data -> mem A -> res (mem A) :=
  match q with
  | Position => a2j_position A | Velocity => a2j_velocity A | Effort => a2j_effort A
  | AbsolutePosition => a2j_absolute A | TorqueSensor => a2j_torque A
  end.
(** Name of the joint-to-actuator map for a quantity (transmission.h:152-175); there is
    none for the last two. *)
Definition to_actuator (q : quantity) : transmission A -> data -> data -> mem A -> res (mem A) :=
  match q with
  | Position => j2a_position A | Velocity => j2a_velocity A | Effort => j2a_effort A
  | _ => fun _ _ _ _ => Invalid
  end.

(** The transmission is the result of a constructor call that did not throw. *)
Definition constructed (t : transmission A) : Prop :=
  (exists r o, make_simple A r o = Some t) \/
  (exists ar jr off ign, make_differential A ar jr off ign = Some t) \/
  (exists ar jr off, make_four_bar A ar jr off = Some t).

(** All parameters of a transmission. *)
Definition parameters (t : transmission A) : list (num A) :=
  match t with Simple _ r o => [r; o] | Differential _ ar jr o _ => ar ++ jr ++ o | FourBar _ ar jr o => ar ++ jr ++ o end.

(** The two vectors used by a map hold valid pointers, as many as the transmission wants,
    to variables that are all different. *)
Definition wired (t : transmission A) (q : quantity) (act jnt : data) (la lj : list addr) : Prop :=
  side q act = map Some la /\ side q jnt = map Some lj /\
  List.length la = num_actuators A t /\ List.length lj = num_joints A t /\ NoDup (la ++ lj).

(** Products of reductions are not (rounded to) zero; only the four-bar linkage forms such a product. *)
Definition no_underflow (t : transmission A) : Prop :=
  match t with
  | FourBar _ (a0 :: _) (j0 :: _) _ => is_zero A (mul A j0 a0) = false /\ is_zero A (mul A a0 j0) = false
  | _ => True
  end.

(** The maps a handle runs (transmission_interface.h:194-362): absolute positions and torque
    sensors only if the actuator side has them. *)
Definition quantities (k : hkind) (h : handle A) : list quantity :=
  match k with
  | ActToJntState =>
      [Position; Velocity; Effort] ++
      (if empty (d_absolute_position (h_act A h)) then [] else [AbsolutePosition]) ++
      (if empty (d_torque_sensor (h_act A h)) then [] else [TorqueSensor])
  | JntToActState => [Position; Velocity; Effort]
  | ActToJntPosition | JntToActPosition => [Position]
  | ActToJntVelocity | JntToActVelocity => [Velocity]
  | ActToJntEffort | JntToActEffort => [Effort]
  end.
(** Direction of a handle. *)
Definition toward_joints (k : hkind) : bool :=
  match k with ActToJntState | ActToJntPosition | ActToJntVelocity | ActToJntEffort => true | _ => false end.

(** The variables pointed to by a vector. *)
Definition addrs (v : vec) : list addr := flat_map (fun p => match p with Some a => [a] | None => [] end) v.
(** The variables a handle reads from. *)
Definition source_data (k : hkind) (h : handle A) : data := if toward_joints k then h_act A h else h_jnt A h.
(** The variables a handle writes to. *)
Definition target_data (k : hkind) (h : handle A) : data := if toward_joints k then h_jnt A h else h_act A h.
Definition sources (k : hkind) (h : handle A) : list addr :=
  flat_map (fun q => addrs (side q (source_data k h))) (quantities k h).
Definition targets (k : hkind) (h : handle A) : list addr :=
  flat_map (fun q => addrs (side q (target_data k h))) (quantities k h).
(** One map of a handle on its own. *)
Definition single_map (k : hkind) (h : handle A) (q : quantity) (m : mem A) : res (mem A) :=
  if toward_joints k then to_joint q (h_trans A h) (h_act A h) (h_jnt A h) m
  else to_actuator q (h_trans A h) (h_jnt A h) (h_act A h) m.

(** The vectors needed to propagate a handle are there on both sides ("Actuator and joint
    variable vectors required by this handle must contain valid data",
    transmission_interface.h:66-68), and there are as many torque sensors as actuators. *)
Definition needed (k : hkind) (h : handle A) : Prop :=
  (forall q, In q (quantities k h) -> side q (h_act A h) <> [] /\ side q (h_jnt A h) <> []) /\
  (In TorqueSensor (quantities k h) ->
   List.length (d_torque_sensor (h_act A h)) = num_actuators A (h_trans A h)).

(** No variable is written twice, and none that is read is written. *)
Definition separate (k : hkind) (h : handle A) : Prop :=
  NoDup (targets k h) /\ forall a, In a (sources k h) -> ~ In a (targets k h).

(** The same for all handles of an interface together. *)
Definition all_separate (k : hkind) (hs : list (handle A)) : Prop :=
  NoDup (flat_map (targets k) hs) /\
  forall a, In a (flat_map (sources k) hs) -> ~ In a (flat_map (targets k) hs).

(** Two memories agree outside some variables. *)
Definition unchanged_outside (l : list addr) (m m' : mem A) : Prop := forall c, ~ In c l -> m' c = m c.

(** Twice a number is zero only if the number is: true of rationals and of doubles. *)
Definition doubling : Prop := forall x, is_zero A x = false -> is_zero A (mul A (two A) x) = false.

(** Two of each, and no reduction is zero. *)
Definition two_each (ar jr off : list (num A)) : Prop :=
  List.length ar = 2%nat /\ List.length jr = 2%nat /\ List.length off = 2%nat /\
  Forall (fun r => is_zero A r = false) (ar ++ jr).

End Spec.

(** Exact numbers. *)
Definition exactd : darith := mkDarith exact
  (fun a b => match a, b with Some x, Some y => if Qeq_bool y 0 then None else Some (x / y) | _, _ => None end)%Q
  (fun a => match a with Some x => Qeq_bool x 0 | None => false end)
  (Some 2)%Q.

(** The same number. *)
Definition same (a b : option Q) : Prop :=
  match a, b with Some x, Some y => (x == y)%Q | _, _ => False end.

(** Effort times velocity, summed over some variables. *)
Definition power (m : mem exactd) (efforts velocities : list addr) : option Q :=
  fold_right (fun ev s => lift2 Qplus (lift2 Qmult (m (fst ev)) (m (snd ev))) s) (Some 0%Q) (combine efforts velocities).

(** The formulas of the documentation (simple_transmission.h:44-91,
    differential_transmission.h:44-117, four_bar_linkage_transmission.h:43-113) for
    actuator-to-joint maps, from values to values.  Three cells of the table for the
    differential are misprinted there: the second joint effort has a plus sign
    (differential_transmission.h:59), the second joint position divides by the first
    joint's reduction (71), the second actuator effort by the first actuator's (81).
    Here they are written with the sign and the index of the velocity maps. *)
Definition joint_formula (t : transmission exactd) (q : quantity) (x y : list Q) : Prop :=
  match t, x, y with
  | Simple _ (Some n) (Some x_off), [a], [j] =>
      match q with
      | Effort | TorqueSensor => j == n * a
      | Velocity => j == a / n
      | Position | AbsolutePosition => j == a / n + x_off
      end
  | Differential _ [Some na1; Some na2] [Some nj1; Some nj2] [Some o1; Some o2] ign, [a1; a2], [j1; j2] =>
      match q with
      | Effort | TorqueSensor => j1 == nj1 * (na1 * a1 + na2 * a2) /\ j2 == nj2 * (na1 * a1 - na2 * a2)
      | Velocity => j1 == (a1 / na1 + a2 / na2) / (2 * nj1) /\ j2 == (a1 / na1 - a2 / na2) / (2 * nj2)
      | Position => j1 == (a1 / na1 + a2 / na2) / (2 * nj1) + o1 /\ j2 == (a1 / na1 - a2 / na2) / (2 * nj2) + o2
      | AbsolutePosition =>
          if ign then j1 == a2 /\ j2 == a1
          else j1 == (a1 / na1 + a2 / na2) / (2 * nj1) + o1 /\ j2 == (a1 / na1 - a2 / na2) / (2 * nj2) + o2
      end
  | FourBar _ [Some na1; Some na2] [Some nj1; Some nj2] [Some o1; Some o2], [a1; a2], [j1; j2] =>
      match q with
      | Effort | TorqueSensor => j1 == nj1 * na1 * a1 /\ j2 == nj2 * (na2 * a2 - nj1 * na1 * a1)
      | Velocity => j1 == a1 / (nj1 * na1) /\ j2 == (a2 / na2 - a1 / (nj1 * na1)) / nj2
      | Position | AbsolutePosition =>
          j1 == a1 / (nj1 * na1) + o1 /\ j2 == (a2 / na2 - a1 / (nj1 * na1)) / nj2 + o2
      end
  | _, _, _ => False
  end%Q.

(** The same for joint-to-actuator maps. *)
Definition actuator_formula (t : transmission exactd) (q : quantity) (y x : list Q) : Prop :=
  match t, x, y with
  | Simple _ (Some n) (Some x_off), [a], [j] =>
      match q with
      | Effort => a == j / n
      | Velocity => a == n * j
      | Position => a == n * (j - x_off)
      | _ => False
      end
  | Differential _ [Some na1; Some na2] [Some nj1; Some nj2] [Some o1; Some o2] _, [a1; a2], [j1; j2] =>
      match q with
      | Effort => a1 == (j1 / nj1 + j2 / nj2) / (2 * na1) /\ a2 == (j1 / nj1 - j2 / nj2) / (2 * na2)
      | Velocity => a1 == na1 * (nj1 * j1 + nj2 * j2) /\ a2 == na2 * (nj1 * j1 - nj2 * j2)
      | Position => a1 == na1 * (nj1 * (j1 - o1) + nj2 * (j2 - o2)) /\ a2 == na2 * (nj1 * (j1 - o1) - nj2 * (j2 - o2))
      | _ => False
      end
  | FourBar _ [Some na1; Some na2] [Some nj1; Some nj2] [Some o1; Some o2], [a1; a2], [j1; j2] =>
      match q with
      | Effort => a1 == j1 / (nj1 * na1) /\ a2 == (j1 + j2 / nj2) / na2
      | Velocity => a1 == nj1 * na1 * j1 /\ a2 == na2 * (j1 + nj2 * j2)
      | Position => a1 == nj1 * na1 * (j1 - o1) /\ a2 == na2 * ((j1 - o1) + nj2 * (j2 - o2))
      | _ => False
      end
  | _, _, _ => False
  end%Q.

(** The transmission is a four-bar linkage. *)
Definition four_bar {A} (t : transmission A) : Prop := match t with FourBar _ _ _ _ => True | _ => False end.

(** Power at the joints minus power at the actuators for a four-bar linkage, as a function
    of actuator efforts and velocities; zero for the others. *)
Definition surplus (t : transmission exactd) (e v : list Q) : Q :=
  match t, e, v with
  | FourBar _ [Some a0; Some a1] [Some j0; Some _] _, [e0; e1], [v0; v1] =>
      (e0 * v0 - e1 * v0 * a1 / (j0 * a0) - e0 * v1 * (j0 * a0) / a1)%Q
  | _, _, _ => 0%Q
  end.

(** [m'] is [m] with each position of a list moved by its velocity times [dt]. *)
Definition moved (dt : Q) (m m' : mem exactd) (lp lv : list addr) : Prop :=
  Forall2 (fun p v => m' p = lift2 Qplus (m p) (lift2 Qmult (m v) (Some dt))) lp lv.

