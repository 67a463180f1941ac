(** What users of handles rely on, said without the classes: a handle is a name and a set of storage cells, each with a
    role; storage is the history of what was written to it. *)
From Coq Require Import List String Bool Arith.
From Verif Require Import HandleModel.
Import ListNotations.
Local Open Scope string_scope.

(** Roles of the cells a handle can give access to: five readings and seven commands. *)
Inductive role := RPos | RVel | REff | RAbs | RTq | KCmd | KPos | KVel | KAcc | KEff | KKp | KKd.
Definition role_eqb (a b : role) : bool :=
  match a, b with
  | RPos, RPos | RVel, RVel | REff, REff | RAbs, RAbs | RTq, RTq | KCmd, KCmd | KPos, KPos | KVel, KVel | KAcc, KAcc
  | KEff, KEff | KKp, KKp | KKd, KKd => true
  | _, _ => false
  end.

(** Kinds of handles and the commands each of them offers; all offer the readings. *)
Inductive hkind := HState | HCmd | HPosVel | HPosVelAcc | HPvt.
Definition offers (k : hkind) (r : role) : bool :=
  match r, k with
  | (RPos | RVel | REff | RAbs | RTq), _ => true
  | KCmd, HCmd => true
  | (KPos | KVel), (HPosVel | HPosVelAcc | HPvt) => true
  | KAcc, HPosVelAcc => true
  | (KEff | KKp | KKd), HPvt => true
  | _, _ => false
  end.
Definition optional (r : role) : bool := match r with RAbs | RTq => true | _ => false end.

(** An abstract handle. *)
Record ahandle := mkA { a_owner : owner; a_kind : hkind; a_name : string; a_cells : list (role * addr) }.
Fixpoint cell (cs : list (role * addr)) (r : role) : option addr :=
  match cs with [] => None | (r', a) :: cs => if role_eqb r' r then Some a else cell cs r end.

(** The text naming a missing cell. *)
Definition missing (r : role) : string :=
  match r with
  | RPos => "Position data pointer is null."
  | RVel => "Velocity data pointer is null."
  | REff => "Effort data pointer is null."
  | RAbs => "Absolute data pointer is null."
  | RTq => "Torque sensor data pointer is null."
  | KCmd => "Command data pointer is null."
  | KPos => "Command position pointer is null."
  | KVel => "Command velocity  pointer is null."
  | KAcc => "Command acceleration data pointer is null."
  | KEff => "Command effort data pointer is null."
  | KKp => "Command position gain data pointer is null."
  | KKd => "Command derivative gain data pointer is null."
  end.
Definition refusal (name : string) (r : role) : string := "Cannot create handle '" ++ name ++ "'. " ++ missing r.
Definition absent (o : owner) (r : role) : string :=
  match o, r with
  | Joint, RAbs => "Joint state handle does not contain absolute encoder position information"
  | Joint, _ => "Joint state handle does not contain torque sensor information"
  | Actuator, RAbs => "Actuator does not support absolute encoders"
  | Actuator, _ => "Actuator does not support torque sensors"
  end.

(** The statements of a program, uniformly.  [Make]: a new handle of this kind; its readings come from the arguments or
    from an existing handle, the other cells from the arguments. *)
Inductive act (V : Type) :=
| Plain (o : owner)
| Make (o : owner) (k : hkind) (src : string + nat) (args : list (role * ptr))
| Put (a : addr) (x : V)
| Set_ (h : nat) (vals : list (role * V))
| Get (h : nat) (r : role).
Arguments Plain {V}. Arguments Make {V}. Arguments Put {V}. Arguments Set_ {V}. Arguments Get {V}.

Definition act_of {V} (c : stmt V) : act V :=
  match c with
  | NewDefault o => Plain o
  | NewState o n p v e => Make o HState (inl n) [(RPos, p); (RVel, v); (REff, e)]
  | NewStateBoth o n p v e a t => Make o HState (inl n) [(RPos, p); (RVel, v); (REff, e); (RAbs, a); (RTq, t)]
  | NewStateAbs o n p v e a => Make o HState (inl n) [(RPos, p); (RVel, v); (REff, e); (RAbs, a)]
  | NewStateTq o n p v e t => Make o HState (inl n) [(RPos, p); (RVel, v); (REff, e); (RTq, t)]
  | NewCmd o js c => Make o HCmd (inr js) [(KCmd, c)]
  | NewPosVel js p v => Make Joint HPosVel (inr js) [(KPos, p); (KVel, v)]
  | NewPosVelAcc js p v a => Make Joint HPosVelAcc (inr js) [(KPos, p); (KVel, v); (KAcc, a)]
  | NewPvt js p v e kp kd => Make Joint HPvt (inr js) [(KPos, p); (KVel, v); (KEff, e); (KKp, kp); (KKd, kd)]
  | Write a x => Put a x
  | SetCmd h x => Set_ h [(KCmd, x)]
  | SetPos h x => Set_ h [(KPos, x)]
  | SetVel h x => Set_ h [(KVel, x)]
  | SetPosVel h p v => Set_ h [(KPos, p); (KVel, v)]
  | SetAcc h x => Set_ h [(KAcc, x)]
  | SetPosVelAcc h p v a => Set_ h [(KPos, p); (KVel, v); (KAcc, a)]
  | SetEff h x => Set_ h [(KEff, x)]
  | SetKp h x => Set_ h [(KKp, x)]
  | SetKd h x => Set_ h [(KKd, x)]
  | SetPvt h p v e kp kd => Set_ h [(KPos, p); (KVel, v); (KEff, e); (KKp, kp); (KKd, kd)]
  | GetPos h => Get h RPos | GetVel h => Get h RVel | GetEff h => Get h REff | GetAbs h => Get h RAbs | GetTq h => Get h RTq
  | GetCmd h => Get h KCmd | GetCmdPos h => Get h KPos | GetCmdVel h => Get h KVel | GetCmdAcc h => Get h KAcc
  | GetCmdEff h => Get h KEff | GetCmdKp h => Get h KKp | GetCmdKd h => Get h KKd
  end.

(** First null argument of a constructor, and the cells when there is none. *)
Fixpoint first_null (args : list (role * ptr)) : option role :=
  match args with [] => None | (r, None) :: _ => Some r | (_, Some _) :: args => first_null args end.
Fixpoint given (args : list (role * ptr)) : list (role * addr) :=
  match args with [] => [] | (r, Some a) :: args => (r, a) :: given args | (_, None) :: args => given args end.
(** The readings of a handle. *)
Definition is_reading (r : role) : bool := match r with RPos | RVel | REff | RAbs | RTq => true | _ => false end.
Definition readings (h : ahandle) : list (role * addr) := filter (fun c => is_reading (fst c)) (a_cells h).

Definition same_owner (a b : owner) : bool := match a, b with Joint, Joint | Actuator, Actuator => true | _, _ => false end.

(** Cells that receive the values of a command, when the handle has them all. *)
Fixpoint targets {V} (cs : list (role * addr)) (vals : list (role * V)) : option (list (addr * V)) :=
  match vals with
  | [] => Some []
  | (r, x) :: vals =>
      match cell cs r, targets cs vals with Some a, Some l => Some ((a, x) :: l) | _, _ => None end
  end.

(** Content of a cell: the value written last, oldest write first in [log]. *)
Fixpoint content {V} (init : mem V) (log : list (addr * V)) (a : addr) : V :=
  match log with
  | [] => init a
  | (b, x) :: log => content (fun c => if Nat.eqb c b then x else init c) log a
  end.

(** The abstract machine: handles made so far and the writes so far. *)
Record ast (V : Type) := mkS { s_handles : list ahandle; s_log : list (addr * V) }.
Arguments mkS {V}. Arguments s_handles {V}. Arguments s_log {V}.

Definition aexec {V} (init : mem V) (s : ast V) (c : act V) : ast V * shown V :=
  match c with
  | Plain o => (mkS (s_handles s ++ [mkA o HState "" []])%list (s_log s), Done)
  | Make o k src args =>
      let go name base :=
        match first_null args with
        | Some r => (s, Thrown (refusal name r))
        | None => (mkS (s_handles s ++ [mkA o k name (base ++ given args)])%list (s_log s), Done)
        end in
      match src with
      | inl name => go name []
      | inr js => match nth_error (s_handles s) js with
                  | Some h => if same_owner o (a_owner h) then go (a_name h) (readings h) else (s, IllFormed)
                  | None => (s, IllFormed)
                  end
      end
  | Put a x => (mkS (s_handles s) (s_log s ++ [(a, x)]), Done)
  | Set_ h vals =>
      match nth_error (s_handles s) h with
      | Some h => if forallb (fun v => offers (a_kind h) (fst v)) vals then
                    match targets (a_cells h) vals with
                    | Some l => (mkS (s_handles s) (s_log s ++ l), Done)
                    | None => (s, Aborted)
                    end
                  else (s, IllFormed)
      | None => (s, IllFormed)
      end
  | Get h r =>
      match nth_error (s_handles s) h with
      | Some h => if offers (a_kind h) r then
                    match cell (a_cells h) r with
                    | Some a => (s, Value (content init (s_log s) a))
                    | None => (s, if optional r then Thrown (absent (a_owner h) r) else Aborted)
                    end
                  else (s, IllFormed)
      | None => (s, IllFormed)
      end
  end.
Fixpoint aexec_all {V} (init : mem V) (s : ast V) (cs : list (act V)) : ast V * list (shown V) :=
  match cs with
  | [] => (s, [])
  | c :: cs =>
      let '(s1, r) := aexec init s c in
      match r with
      | Aborted | IllFormed => (s1, [r])
      | _ => let '(s2, rs) := aexec_all init s1 cs in (s2, r :: rs)
      end
  end.

(** The statement does not use the constructor without arguments. *)
Definition no_default {V} (c : stmt V) : Prop := match c with NewDefault _ => False | _ => True end.

(** Interfaces of the package whose handles command a joint; commands to actuators are not among them. *)
Definition commands_joint : list iclass := [JointCommandI; EffortJointI; VelocityJointI; PositionJointI; PosVelI; PosVelAccI; PvtI].
Definition commands_actuator : list iclass := [ActuatorCommandI; EffortActuatorI; VelocityActuatorI; PositionActuatorI].

(** Values a program can see in storage after it ran. *)
Definition sees {V} (init : mem V) (prog : list (stmt V)) : list (shown V) := snd (exec_all (start init) prog).
Definition holds_after {V} (init : mem V) (prog : list (stmt V)) (a : addr) : V := p_mem (fst (exec_all (start init) prog)) a.
