(** Specification of a combined robot. *)
From Verif Require Import HwTypes SMap HwModel HwSpec CombModel.

(** The claims of a controller that concern a part, given what the part has
    ([has T r]: resource [r] of interface type [T]). *)
Definition concerned_claims (has : string -> string -> bool) (claims : list iface_res) : list iface_res :=
  filter (fun f => match ir_res f with [] => false | _ => true end)
    (map (fun f => mkIface (ir_iface f) (filter (has (ir_iface f)) (ir_res f))) claims).
(** The part has at least one resource the controller claims. *)
Definition touches (has : string -> string -> bool) (c : cinfo) : bool :=
  existsb (fun f => existsb (has (ir_iface f)) (ir_res f)) (ci_claims c).
(** The controllers reported to a part. *)
Definition concerned (has : string -> string -> bool) (l : list cinfo) : list cinfo :=
  map (fun c => mkInfo (ci_name c) (ci_type c) (concerned_claims has (ci_claims c)))
    (filter (fun c => match ci_claims c with [] => true | _ => touches has c end) l).

(** Claims are sets (controller_info.h, interface_resources.h: std::set). *)
Definition claim_sets (l : list cinfo) : Prop := forall c f, In c l -> In f (ci_claims c) -> increasing (ir_res f).

(** [has] tells what the manager [m] provides. *)
Definition tells (has : string -> string -> bool) (w : world) (m : mgr) : Prop :=
  forall T r, has T r = true <-> provides w m T r.

(** The parts that were prepared by these calls. *)
Definition prepared (cs : list pcall) : list nat := flat_map (fun c => match c with PPrepare id _ _ true => [id] | _ => [] end) cs.

(** A part with this name can be loaded. *)
Definition loadable (env : string -> load_desc) (n : string) : Prop :=
  let d := env n in
  ld_nh d = true /\ (exists ty, ld_type d = Some ty) /\ ld_declared d = true /\ ld_created d = true /\ ld_init d = Some true.

(** The parts for these names, in order. *)
Definition parts_for (env : string -> load_desc) (names : list string) : list part :=
  map (fun x => mkPart (fst x) (ld_mgr (env (snd x)))) (List.combine (seq 0 (length names)) names).
(** The combined manager: its sub-managers are those of the parts, in order. *)
Definition mgr_from (env : string -> load_desc) (m : mgr) (names : list string) : mgr :=
  fold_left (fun m n => register_manager m (ld_mgr (env n))) names m.
