(** Model of the default resource conflict check,
    hardware_interface/include/hardware_interface/robot_hw.h:113-146. *)
From Verif Require Export HwTypes SMap.

(** [resource_map[r].push_back(info)] (robot_hw.h:126): [operator[]] creates an
    empty list for a new key. *)
Definition push_claim (m : smap (list cinfo)) (r : string) (c : cinfo) : smap (list cinfo) :=
  match sfind r m with
  | None => sset r [c] m
  | Some l => sset r (l ++ [c]) m
  end.

(** robot_hw.h:124-127: innermost loop. *)
Definition add_resources (c : cinfo) (m : smap (list cinfo)) (ir : iface_res) : smap (list cinfo) :=
  fold_left (fun m r => push_claim m r c) (ir_res ir) m.

(** robot_hw.h:122-128: loop over the claimed resources of one controller. *)
Definition add_controller (m : smap (list cinfo)) (c : cinfo) : smap (list cinfo) :=
  fold_left (add_resources c) (ci_claims c) m.

(** robot_hw.h:113-146 [checkForConflict]; [true] means conflict. *)
Definition check_for_conflict (infos : list cinfo) : bool :=
  let m := fold_left add_controller infos [] in
  existsb (fun rc => Nat.ltb 1 (length (snd rc))) m.
