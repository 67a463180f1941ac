(** Plain data types shared by the models. *)
From Coq Require Export String List Bool ZArith Lia.
Export ListNotations.

(** hardware_interface/include/hardware_interface/interface_resources.h:42-56
    [struct InterfaceResources].  [std::set<std::string>] is a list of strings;
    the models that build such sets keep them sorted and duplicate free, the
    theorems that need it say so. *)
Record iface_res := mkIface { ir_iface : string; ir_res : list string }.

(** hardware_interface/include/hardware_interface/controller_info.h:44-54
    [struct ControllerInfo]. *)
Record cinfo := mkInfo { ci_name : string; ci_type : string; ci_claims : list iface_res }.

(** hardware_interface/include/hardware_interface/robot_hw.h:167-172
    [enum class SwitchState]. *)
Inductive swstate := DONE | ONGOING | ERROR.

(** "==" on SwitchState (robot_hw.h:167-172), as at controller_manager.cpp:153, 163, 197, 202. *)
Definition swstate_eqb (a b : swstate) : bool :=
  match a, b with
  | DONE, DONE | ONGOING, ONGOING | ERROR, ERROR => true
  | _, _ => false
  end.
