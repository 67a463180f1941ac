(** What each limiter writes, stated without the limiters: a window of permitted commands and
    the permitted command nearest to the one given. *)
From Verif Require Export LimSpec.

Section Near.
Context {A : arith}.
Notation F := (num A).

(** [w] is the number nearest to [c] between [lo] and [hi]; should the two be in the wrong
    order, [hi]. *)
Definition nearest (lo hi c w : F) : Prop :=
  (lt hi lo -> w = hi) /\
  (le lo hi -> (within lo hi c -> w = c) /\ (lt c lo -> w = lo) /\ (lt hi c -> w = hi)).

(** The greater and the smaller of two numbers. *)
Definition greater (a b m : F) : Prop := (m = a \/ m = b) /\ le a m /\ le b m.
Definition smaller (a b m : F) : Prop := (m = a \/ m = b) /\ le m a /\ le m b.

(** The window [lo0, hi0] cut to what is within [d] of [a]. *)
Definition around (a d lo0 hi0 lo hi : F) : Prop :=
  greater (sub A a d) lo0 lo /\ smaller (add A a d) hi0 hi.

(** Positions permitted by position and velocity limits, from reference [ref]. *)
Definition position_window (l : limits A) (ref dt lo hi : F) : Prop :=
  let hard_lo := if has_position_limits l then min_position l else opp A (maxnum A) in
  let hard_hi := if has_position_limits l then max_position l else maxnum A in
  if has_velocity_limits l then around ref (mul A (max_velocity l) dt) hard_lo hard_hi lo hi
  else lo = hard_lo /\ hi = hard_hi.

(** Velocities permitted at position [p] by a velocity limit [vmax] and soft limits: minus
    k_position times the distance from either soft limit, brought between -vmax and vmax. *)
Definition soft_velocities (l : limits A) (s : soft_limits A) (vmax p vlo vhi : F) : Prop :=
  if has_position_limits l then
    nearest (opp A vmax) vmax (mul A (opp A (k_position s)) (sub A p (soft_min s))) vlo /\
    nearest (opp A vmax) vmax (mul A (opp A (k_position s)) (sub A p (soft_max s))) vhi
  else vlo = opp A vmax /\ vhi = vmax.

(** Positions reached with the permitted velocities, inside the hard limits. *)
Definition soft_position_window (l : limits A) (s : soft_limits A) (ref dt lo hi : F) : Prop :=
  exists vlo vhi, soft_velocities l s (max_velocity l) ref vlo vhi /\
    if has_position_limits l then
      greater (add A ref (mul A vlo dt)) (min_position l) lo /\
      smaller (add A ref (mul A vhi dt)) (max_position l) hi
    else lo = add A ref (mul A vlo dt) /\ hi = add A ref (mul A vhi dt).

(** Efforts permitted: up to the limit, and only back towards the limits when the joint is
    beyond its position or velocity limit. *)
Definition effort_window (l : limits A) (j : joint A) (lo hi : F) : Prop :=
  (beyond_low l j -> lo = zero A) /\ (~ beyond_low l j -> lo = opp A (max_effort l)) /\
  (beyond_high l j -> hi = zero A) /\ (~ beyond_high l j -> hi = max_effort l).

(** Efforts permitted at measured position and velocity by the soft limits: minus k_velocity
    times the distance from either permitted velocity, brought between the effort limits. *)
Definition soft_effort_window (l : limits A) (s : soft_limits A) (j : joint A) (lo hi : F) : Prop :=
  exists vlo vhi, soft_velocities l s (max_velocity l) (j_pos j) vlo vhi /\
    nearest (opp A (max_effort l)) (max_effort l)
      (mul A (opp A (k_velocity s)) (sub A (j_vel j) vlo)) lo /\
    nearest (opp A (max_effort l)) (max_effort l)
      (mul A (opp A (k_velocity s)) (sub A (j_vel j) vhi)) hi.

(** Velocities permitted by velocity and acceleration limits, from the previous command. *)
Definition velocity_window (l : limits A) (ref dt lo hi : F) : Prop :=
  if has_acceleration_limits l then
    around ref (mul A (max_acceleration l) dt) (opp A (max_velocity l)) (max_velocity l) lo hi
  else lo = opp A (max_velocity l) /\ hi = max_velocity l.

(** Velocities permitted by the soft limits and the acceleration limit, from the measured
    state.  Without a velocity limit the greatest number takes its place. *)
Definition soft_velocity_window (l : limits A) (s : soft_limits A) (j : joint A) (dt lo hi : F) : Prop :=
  let vmax := if has_velocity_limits l then max_velocity l else maxnum A in
  exists vlo vhi, soft_velocities l s vmax (j_pos j) vlo vhi /\
    if has_acceleration_limits l
    then around (j_vel j) (mul A (max_acceleration l) dt) vlo vhi lo hi
    else lo = vlo /\ hi = vhi.

(** Only the command of the joint has changed, to the nearest permitted one. *)
Definition limited (j j' : joint A) (lo hi : F) : Prop :=
  j_pos j' = j_pos j /\ j_vel j' = j_vel j /\ nearest lo hi (j_cmd j) (j_cmd j').

(** Soft limits are finite (and not huge), gains besides not negative. *)
Definition gains_ok (tame : F -> Prop) (s : soft_limits A) : Prop :=
  tame (soft_min s) /\ tame (soft_max s) /\ bound_ok tame (k_position s) /\ bound_ok tame (k_velocity s).

(** ** When the limiters refuse *)

(** What a class of limiters needs to be constructed. *)
Inductive lim_class := PosSat | PosSoft | EffSat | EffSoft | VelSat | VelSoft.
Definition needs_velocity (c : lim_class) : bool :=
  match c with PosSoft | EffSat | EffSoft | VelSat => true | _ => false end.
Definition needs_effort (c : lim_class) : bool :=
  match c with EffSat | EffSoft => true | _ => false end.
(** The constructor of a class does not throw. *)
Definition constructed (c : lim_class) (l : limits A) (s : soft_limits A) : Prop :=
  match c with
  | PosSat => True
  | PosSoft => pos_soft_make l s <> None
  | EffSat => eff_sat_make l <> None
  | EffSoft => eff_soft_make l s <> None
  | VelSat => vel_sat_make l <> None
  | VelSoft => True
  end.
End Near.
