(** Vocabulary for the statements about joint limits. *)
From Coq Require Import String.
From Verif Require Export LimLaws.

Section Spec.
Context {A : arith}.
Notation F := (num A).

(** What happens to a limit handle during its life: enforceLimits is called with the joint
    showing some position, velocity and command and with some period, or reset is called. *)
Inductive lim_op := Enforce (j : joint A) (dt : F) | Reset.

(** ** Histories of the position limiters *)

(** The handle after a history of calls. *)
Definition pos_sat_after (h : pos_sat A) (ops : list lim_op) : pos_sat A :=
  fold_left (fun h o => match o with
                        | Enforce j dt => fst (pos_sat_enforce h j dt)
                        | Reset => pos_sat_reset h
                        end) ops h.

(** The command found on the joint after enforceLimits is called once more. *)
Definition pos_sat_written (l : limits A) (ops : list lim_op) (j : joint A) (dt : F) : F :=
  j_cmd (snd (pos_sat_enforce (pos_sat_after (pos_sat_make l) ops) j dt)).

(** The same for the soft limiter; [None] once an assertion has failed. *)
Definition pos_soft_after (h : pos_soft A) (ops : list lim_op) : option (pos_soft A) :=
  fold_left (fun h o =>
    match h with
    | None => None
    | Some h => match o with
                | Enforce j dt => option_map fst (pos_soft_enforce h j dt)
                | Reset => Some (pos_soft_reset h)
                end
    end) ops (Some h).

Definition pos_soft_written (l : limits A) (s : soft_limits A) (ops : list lim_op)
  (j : joint A) (dt : F) : option F :=
  match pos_soft_make l s with
  | None => None
  | Some h => match pos_soft_after h ops with
              | None => None
              | Some h => option_map (fun r => j_cmd (snd r)) (pos_soft_enforce h j dt)
              end
  end.

(** The position a position command is limited relative to: the command written by the
    previous call, or the measured position if there is no previous call, if the previous
    call was a reset, or if the previous command was NaN. *)
Definition pos_sat_reference (l : limits A) (ops : list lim_op) (j : joint A) : F :=
  match rev ops with
  | Enforce j' dt' :: before =>
      if isnan A (j_cmd j') then j_pos j else pos_sat_written l (rev before) j' dt'
  | _ => j_pos j
  end.

(** The period is a finite number that is not negative. *)
Definition period_ok (fin : F -> Prop) (dt : F) : Prop := fin dt /\ le (zero A) dt.

(** A history in which the measured position satisfies [Z] (is inside some zone) whenever it is
    the reference, and every period satisfies [P].  [fresh]: the measured position is the
    reference of the next call. *)
Fixpoint starts_inside (P Z : F -> Prop) (fresh : bool) (ops : list lim_op) : Prop :=
  match ops with
  | [] => True
  | Enforce j dt :: r =>
      P dt /\ (fresh = true -> Z (j_pos j)) /\ starts_inside P Z (isnan A (j_cmd j)) r
  | Reset :: r => starts_inside P Z true r
  end.

(** The same reference for the soft limiter. *)
Definition pos_soft_reference (l : limits A) (s : soft_limits A) (ops : list lim_op) (j : joint A)
  : option F :=
  match rev ops with
  | Enforce j' dt' :: before =>
      if isnan A (j_cmd j') then Some (j_pos j) else pos_soft_written l s (rev before) j' dt'
  | _ => Some (j_pos j)
  end.

(** Position limits are given, are finite and in order; a velocity limit, if there is one, is
    finite and not negative. *)
Definition pos_limits_ok (fin : F -> Prop) (l : limits A) : Prop :=
  has_position_limits l = true /\ fin (min_position l) /\ fin (max_position l) /\
  le (min_position l) (max_position l) /\
  (has_velocity_limits l = true -> fin (max_velocity l) /\ le (zero A) (max_velocity l)).

(** [b] is at most [d] away from [a]: between a - d and a + d as the number type computes
    them. *)
Definition near (d a b : F) : Prop := le (sub A a d) b /\ le b (add A a d).

(** Symmetric bounds. *)
Definition bounded (m a : F) : Prop := le (opp A m) a /\ le a m.

(** ** Histories of the velocity limiter *)

Definition vel_sat_after (h : vel_sat A) (ops : list (joint A * F)) : option (vel_sat A) :=
  fold_left (fun h o => match h with
                        | None => None
                        | Some h => option_map fst (vel_sat_enforce h (fst o) (snd o))
                        end) ops (Some h).

Definition vel_sat_written (l : limits A) (ops : list (joint A * F)) (j : joint A) (dt : F)
  : option F :=
  match vel_sat_make l with
  | None => None
  | Some h => match vel_sat_after h ops with
              | None => None
              | Some h => option_map (fun r => j_cmd (snd r)) (vel_sat_enforce h j dt)
              end
  end.

(** The command written by the call before, zero if there is none. *)
Definition vel_sat_reference (l : limits A) (ops : list (joint A * F)) : option F :=
  match rev ops with
  | [] => Some (zero A)
  | (j, dt) :: before => vel_sat_written l (rev before) j dt
  end.

End Spec.
Arguments lim_op : clear implicits.

(** ** Conditions on the limits used in the statements *)
Section Conditions.
Context {A : arith}.
Notation F := (num A).

(** A bound that is given, finite and not negative. *)
Definition bound_ok (fin : F -> Prop) (m : F) : Prop := fin m /\ le (zero A) m.

(** The velocity limiter is usable: a velocity limit is given, and the acceleration limit is
    sensible if there is one. *)
Definition vel_limits_ok (fin : F -> Prop) (l : limits A) : Prop :=
  has_velocity_limits l = true /\ bound_ok fin (max_velocity l) /\
  (has_acceleration_limits l = true -> bound_ok fin (max_acceleration l)).

(** Commands that are not NaN, and periods that are finite and positive (the limiter asserts
    that much when there are acceleration limits). *)
Definition vel_call_ok (fin : F -> Prop) (o : joint A * F) : Prop :=
  numeric (j_cmd (fst o)) /\ fin (snd o) /\ lt (zero A) (snd o).

(** Velocity and effort limits are given. *)
Definition eff_limits_ok (fin : F -> Prop) (l : limits A) : Prop :=
  has_velocity_limits l = true /\ has_effort_limits l = true /\
  bound_ok fin (max_velocity l) /\ bound_ok fin (max_effort l).

(** Soft limits that are finite (and not huge), with gains that are not negative. *)
Definition soft_ok (tame : F -> Prop) (s : soft_limits A) : Prop :=
  tame (soft_min s) /\ tame (soft_max s) /\ le (soft_min s) (soft_max s) /\
  bound_ok tame (k_position s) /\ bound_ok tame (k_velocity s).

(** Limits for the soft position limiter, hard position limits being given. *)
Definition soft_pos_limits_ok (tame : F -> Prop) (l : limits A) : Prop :=
  has_position_limits l = true /\ has_velocity_limits l = true /\
  tame (min_position l) /\ tame (max_position l) /\
  le (min_position l) (max_position l) /\ bound_ok tame (max_velocity l).

(** The joint is beyond its lower position or velocity limit / its upper one. *)
Definition beyond_low (l : limits A) (j : joint A) : Prop :=
  has_position_limits l = true /\ lt (j_pos j) (min_position l) \/
  lt (j_vel j) (opp A (max_velocity l)).
Definition beyond_high (l : limits A) (j : joint A) : Prop :=
  has_position_limits l = true /\ lt (max_position l) (j_pos j) \/
  lt (max_velocity l) (j_vel j).

(** Limits for the soft effort limiter. *)
Definition eff_soft_limits_ok (tame : F -> Prop) (l : limits A) : Prop :=
  has_velocity_limits l = true /\ has_effort_limits l = true /\
  bound_ok tame (max_velocity l) /\ bound_ok tame (max_effort l).

(** Limits for the soft velocity limiter [h]. *)
Definition vel_soft_limits_ok (fin tame : F -> Prop) (l : limits A) (h : vel_soft A) : Prop :=
  vf_limits h = l /\ bound_ok fin (vf_max h) /\ soft_ok tame (vf_soft h) /\
  (has_acceleration_limits l = true -> bound_ok fin (max_acceleration l)).

(** Limits whose soft part overlaps the hard part as it should, all numbers being small. *)
Definition soft_position_ok (small : F -> Prop) (l : limits A) (s : soft_limits A) : Prop :=
  soft_pos_limits_ok small l /\ soft_ok small s /\
  le (min_position l) (soft_max s) /\ le (soft_min s) (max_position l).

(** A finite positive period that fits the gain. *)
Definition soft_period (fin : F -> Prop) (gain : F -> F -> Prop) (s : soft_limits A) (dt : F) : Prop :=
  fin dt /\ lt (zero A) dt /\ gain (k_position s) dt.

(** A limit with one value is completely specified / switched off. *)
Definition specified (p : params A) (flag value : string) (v : F) : Prop :=
  p flag = Some (PBool true) /\ p value = Some (PNum v).
Definition switched_off (p : params A) (flag : string) : Prop := p flag = Some (PBool false).

(** What a one-valued limit becomes. *)
Definition updated (p : params A) (flag value : string) (h0 : bool) (v0 : F) (h : bool) (v : F) : Prop :=
  (forall x, specified p flag value x -> h = true /\ v = x) /\
  (switched_off p flag -> h = false /\ v = v0) /\
  ((forall x, ~ specified p flag value x) -> ~ switched_off p flag -> h = h0 /\ v = v0).

(** What the position limits become. *)
Definition pos_specified (p : params A) (lo hi : F) : Prop :=
  p "has_position_limits"%string = Some (PBool true) /\
  p "min_position"%string = Some (PNum lo) /\ p "max_position"%string = Some (PNum hi).
Definition pos_updated (p : params A) (l l' : limits A) : Prop :=
  (forall lo hi, pos_specified p lo hi ->
     has_position_limits l' = true /\ min_position l' = lo /\ max_position l' = hi) /\
  (switched_off p "has_position_limits" -> has_position_limits l' = false /\
     min_position l' = min_position l /\ max_position l' = max_position l) /\
  ((forall lo hi, ~ pos_specified p lo hi) -> ~ switched_off p "has_position_limits" ->
     has_position_limits l' = has_position_limits l /\
     min_position l' = min_position l /\ max_position l' = max_position l).

(** What the wrap-around flag becomes: it is read for joints without position limits. *)
Definition wrap_updated (p : params A) (l l' : limits A) : Prop :=
  (forall w, switched_off p "has_position_limits" -> p "angle_wraparound"%string = Some (PBool w) ->
     angle_wraparound l' = w) /\
  ((forall w, ~ (switched_off p "has_position_limits" /\
                 p "angle_wraparound"%string = Some (PBool w))) ->
     angle_wraparound l' = angle_wraparound l).

(** The four soft limit parameters are there and are numbers / one of them is missing. *)
Definition soft_specified (p : params A) (s : soft_limits A) : Prop :=
  p "has_soft_limits"%string = Some (PBool true) /\
  p "soft_lower_limit"%string = Some (PNum (soft_min s)) /\
  p "soft_upper_limit"%string = Some (PNum (soft_max s)) /\
  p "k_position"%string = Some (PNum (k_position s)) /\
  p "k_velocity"%string = Some (PNum (k_velocity s)).
Definition soft_missing (p : params A) : Prop :=
  p "has_soft_limits"%string <> Some (PBool true) \/
  p "soft_lower_limit"%string = None \/ p "soft_upper_limit"%string = None \/
  p "k_position"%string = None \/ p "k_velocity"%string = None.

(** What getJointLimits from a URDF joint with limits does. *)
Definition urdf_updated (t : jtype) (u : urdf_lim A) (l l' : limits A) : Prop :=
  (t = REVOLUTE \/ t = PRISMATIC ->
     has_position_limits l' = true /\ min_position l' = ul_lower u /\ max_position l' = ul_upper u) /\
  (t <> REVOLUTE -> t <> PRISMATIC ->
     has_position_limits l' = false /\
     min_position l' = min_position l /\ max_position l' = max_position l) /\
  (has_velocity_limits l' = true /\ max_velocity l' = ul_velocity u) /\
  (has_effort_limits l' = true /\ max_effort l' = ul_effort u) /\
  (has_jerk_limits l' = has_jerk_limits l /\ max_jerk l' = max_jerk l) /\
  (max_acceleration l' = max_acceleration l /\ has_acceleration_limits l' = false) /\
  (t = CONTINUOUS -> angle_wraparound l' = true) /\
  (t <> CONTINUOUS -> angle_wraparound l' = angle_wraparound l).

(** A joint that does in each period what the soft velocity limiter commands: each step gives
    the measured velocity, the command found and the period. *)
Fixpoint follow (h : vel_soft A) (pos : F) (steps : list (F * F * F)) : F :=
  match steps with
  | [] => pos
  | (vel, c, dt) :: r =>
      follow h (add A pos (mul A (j_cmd (vel_soft_enforce h (mkJoint pos vel c) dt)) dt)) r
  end.
End Conditions.

