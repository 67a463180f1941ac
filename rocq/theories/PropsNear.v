(** Property theorems: every limiter writes the permitted command nearest to the one given;
    when limiters refuse; the order in which an interface limits its joints.  Stated for the
    numbers the code computes with (IEEE 754 doubles) and again for exact rationals. *)
From Coq Require Import Reals QArith Sorted.
From Flocq Require Import Core BinarySingleNaN.
From Verif Require Import LimNearSpec LimExact LimDouble LimProofs LimRest LimDGain LimNear PropsLim SMapProofs.
Local Open Scope string_scope.
Local Open Scope list_scope.

(** * C99: the nearest permitted command *)
Theorem C99_position (l : limits double) ops j dt :
  (has_position_limits l = true -> numeric (min_position l) /\ numeric (max_position l)) ->
  (has_velocity_limits l = true -> finite (max_velocity l)) ->
  period_ok finite dt -> finite (pos_sat_reference l ops j) -> numeric (j_cmd j) ->
  exists lo hi, position_window l (pos_sat_reference l ops j) dt lo hi /\
    limited j (snd (pos_sat_enforce (pos_sat_after (pos_sat_make l) ops) j dt)) lo hi.
Proof. exact (pos_sat_limited double_laws l ops j dt). Qed.
Print Assumptions C99_position.
Theorem C99_soft_position (l : limits double) s ops j dt h h0 ref :
  pos_soft_make l s = Some h0 ->
  pos_soft_after h0 ops = Some h -> pos_soft_reference l s ops j = Some ref ->
  (has_position_limits l = true -> numeric (min_position l) /\ numeric (max_position l)) ->
  bound_ok finite (max_velocity l) -> gains_ok moderate s ->
  finite dt -> lt (zero double) dt -> moderate ref -> numeric (j_cmd j) ->
  exists h' j' lo hi, pos_soft_enforce h j dt = Some (h', j') /\
    soft_position_window l s ref dt lo hi /\ limited j j' lo hi.
Proof. exact (pos_soft_limited double_laws l s ops j dt h h0 ref). Qed.
Print Assumptions C99_soft_position.
Theorem C99_effort (l : limits double) l' j dt : eff_sat_make l = Some l' ->
  (has_position_limits l = true -> le (min_position l) (max_position l)) ->
  bound_ok finite (max_velocity l) -> bound_ok finite (max_effort l) -> numeric (j_cmd j) ->
  exists lo hi, effort_window l j lo hi /\ limited j (eff_sat_enforce l' j dt) lo hi.
Proof. exact (eff_sat_limited double_laws l l' j dt). Qed.
Print Assumptions C99_effort.
Theorem C99_soft_effort (l : limits double) s h j dt : eff_soft_make l s = Some h ->
  gains_ok moderate s -> bound_ok moderate (max_velocity l) -> bound_ok finite (max_effort l) ->
  moderate (j_pos j) -> moderate (j_vel j) -> numeric (j_cmd j) ->
  exists lo hi, soft_effort_window l s j lo hi /\ limited j (eff_soft_enforce h j dt) lo hi.
Proof. exact (eff_soft_limited double_laws l s h j dt). Qed.
Print Assumptions C99_soft_effort.
Theorem C99_velocity (l : limits double) h0 h j dt ops ref : vel_sat_make l = Some h0 ->
  vel_sat_after h0 ops = Some h -> vel_sat_reference l ops = Some ref ->
  finite (max_velocity l) ->
  (has_acceleration_limits l = true ->
   finite (max_acceleration l) /\ finite dt /\ lt (zero double) dt /\ finite ref) ->
  numeric (j_cmd j) ->
  exists h' j' lo hi, vel_sat_enforce h j dt = Some (h', j') /\
    velocity_window l ref dt lo hi /\ limited j j' lo hi.
Proof. exact (vel_sat_limited double_laws l h0 h j dt ops ref). Qed.
Print Assumptions C99_velocity.
Theorem C99_soft_velocity (l : limits double) s j dt : gains_ok moderate s ->
  (has_velocity_limits l = true -> bound_ok finite (max_velocity l)) ->
  (has_acceleration_limits l = true ->
   finite (max_acceleration l) /\ finite (j_vel j) /\ period_ok finite dt) ->
  moderate (j_pos j) -> numeric (j_cmd j) ->
  exists lo hi, soft_velocity_window l s j dt lo hi /\
    limited j (vel_soft_enforce (vel_soft_make l s) j dt) lo hi.
Proof. exact (vel_soft_limited double_laws l s j dt). Qed.
Print Assumptions C99_soft_velocity.

Theorem C99_position_exact (l : limits exact) ops j dt :
  (has_position_limits l = true -> numeric (min_position l) /\ numeric (max_position l)) ->
  (has_velocity_limits l = true -> rational (max_velocity l)) ->
  period_ok rational dt -> rational (pos_sat_reference l ops j) -> numeric (j_cmd j) ->
  exists lo hi, position_window l (pos_sat_reference l ops j) dt lo hi /\
    limited j (snd (pos_sat_enforce (pos_sat_after (pos_sat_make l) ops) j dt)) lo hi.
Proof. exact (pos_sat_limited exact_laws l ops j dt). Qed.
Print Assumptions C99_position_exact.
Theorem C99_soft_position_exact (l : limits exact) s ops j dt h h0 ref :
  pos_soft_make l s = Some h0 ->
  pos_soft_after h0 ops = Some h -> pos_soft_reference l s ops j = Some ref ->
  (has_position_limits l = true -> numeric (min_position l) /\ numeric (max_position l)) ->
  bound_ok rational (max_velocity l) -> gains_ok rational s ->
  rational dt -> lt (zero exact) dt -> rational ref -> numeric (j_cmd j) ->
  exists h' j' lo hi, pos_soft_enforce h j dt = Some (h', j') /\
    soft_position_window l s ref dt lo hi /\ limited j j' lo hi.
Proof. exact (pos_soft_limited exact_laws l s ops j dt h h0 ref). Qed.
Print Assumptions C99_soft_position_exact.
Theorem C99_effort_exact (l : limits exact) l' j dt : eff_sat_make l = Some l' ->
  (has_position_limits l = true -> le (min_position l) (max_position l)) ->
  bound_ok rational (max_velocity l) -> bound_ok rational (max_effort l) -> numeric (j_cmd j) ->
  exists lo hi, effort_window l j lo hi /\ limited j (eff_sat_enforce l' j dt) lo hi.
Proof. exact (eff_sat_limited exact_laws l l' j dt). Qed.
Print Assumptions C99_effort_exact.
Theorem C99_soft_effort_exact (l : limits exact) s h j dt : eff_soft_make l s = Some h ->
  gains_ok rational s -> bound_ok rational (max_velocity l) -> bound_ok rational (max_effort l) ->
  rational (j_pos j) -> rational (j_vel j) -> numeric (j_cmd j) ->
  exists lo hi, soft_effort_window l s j lo hi /\ limited j (eff_soft_enforce h j dt) lo hi.
Proof. exact (eff_soft_limited exact_laws l s h j dt). Qed.
Print Assumptions C99_soft_effort_exact.
Theorem C99_velocity_exact (l : limits exact) h0 h j dt ops ref : vel_sat_make l = Some h0 ->
  vel_sat_after h0 ops = Some h -> vel_sat_reference l ops = Some ref ->
  rational (max_velocity l) ->
  (has_acceleration_limits l = true ->
   rational (max_acceleration l) /\ rational dt /\ lt (zero exact) dt /\ rational ref) ->
  numeric (j_cmd j) ->
  exists h' j' lo hi, vel_sat_enforce h j dt = Some (h', j') /\
    velocity_window l ref dt lo hi /\ limited j j' lo hi.
Proof. exact (vel_sat_limited exact_laws l h0 h j dt ops ref). Qed.
Print Assumptions C99_velocity_exact.
Theorem C99_soft_velocity_exact (l : limits exact) s j dt : gains_ok rational s ->
  (has_velocity_limits l = true -> bound_ok rational (max_velocity l)) ->
  (has_acceleration_limits l = true ->
   rational (max_acceleration l) /\ rational (j_vel j) /\ period_ok rational dt) ->
  rational (j_pos j) -> numeric (j_cmd j) ->
  exists lo hi, soft_velocity_window l s j dt lo hi /\
    limited j (vel_soft_enforce (vel_soft_make l s) j dt) lo hi.
Proof. exact (vel_soft_limited exact_laws l s j dt). Qed.
Print Assumptions C99_soft_velocity_exact.

(** The two number types distinguish what they should: the nearest number is unique. *)
Theorem C99_nearest_unique (lo hi c w w' : num double) : numeric lo -> numeric hi -> numeric c ->
  nearest lo hi c w -> nearest lo hi c w' -> w = w'.
Proof.
  intros Nl Nh Nc [H1 H2] [H1' H2'].
  destruct (le_or_lt lo hi Nl Nh) as [H|H].
  - destruct (H2 H) as (A1 & A2 & A3). destruct (H2' H) as (B1 & B2 & B3).
    destruct (le_or_lt lo c Nl Nc) as [G|G]; [|now rewrite A2, B2].
    destruct (le_or_lt c hi Nc Nh) as [K|K]; [|now rewrite A3, B3].
    rewrite A1, B1; auto; split; auto.
  - now rewrite H1, H1'.
Qed.
Print Assumptions C99_nearest_unique.

(** Limits of position 1, velocity 1, acceleration 4, effort 16; soft limits 7/8. *)
Example C99_example :
  gains_ok moderate sx /\ bound_ok moderate (max_velocity (lx true)) /\
  bound_ok finite (max_effort (lx true)) /\ finite (max_acceleration (lx true)) /\
  eff_sat_make (lx true) = Some (lx true) /\ eff_soft_make (lx true) sx = Some (mkEffSoft (lx true) sx) /\
  match vel_sat_make (lx true) with
  | Some h0 => exists h, vel_sat_after h0 [(jx d0 d0 d1, ms8)] = Some h
  | None => False
  end /\
  match pos_soft_make (lx true) sx with
  | Some h0 => exists h, pos_soft_after h0 [Enforce (jx half d0 d1) ms8; Reset] = Some h
  | None => False
  end /\
  finite (pos_sat_reference (lx true) [Enforce (jx half d0 d1) ms8] (jx d0 d0 d0)).
Proof.
  split; [unfold gains_ok; num|]. split; [num|]. split; [num|]. split; [reflexivity|]. split; [reflexivity|].
  split; [reflexivity|]. split; [eexists; reflexivity|]. split; [eexists; reflexivity|].
  vm_compute. reflexivity.
Qed.
(** Near a soft limit a command inside the window is passed on and one outside is cut: at 3/4,
    1/8 below the soft limit, velocities up to 1/2 are permitted. *)
Example C99_example_exact :
  j_cmd (vel_soft_enforce (vel_soft_make (qx false) qs) (qj (3#4) 0 (1#4)) (q (1#100))) = q (1#4) /\
  match j_cmd (vel_soft_enforce (vel_soft_make (qx false) qs) (qj (3#4) 0 (3#4)) (q (1#100))) with
  | Some x => x == 1#2
  | None => False
  end /\
  match eff_soft_make (qx false) qs with
  | Some h => j_cmd (eff_soft_enforce h (qj (3#4) 0 (1#4)) (q (1#100))) = q (1#4)
  | None => False
  end.
Proof. vm_compute. auto. Qed.

(** * C53: the velocity limit itself, for a limiter made from limits *)
Theorem C53_velocity_limit (l : limits double) s j dt :
  has_velocity_limits l = true -> bound_ok finite (max_velocity l) -> soft_ok moderate s ->
  (has_acceleration_limits l = true ->
   bound_ok finite (max_acceleration l) /\ bounded (max_velocity l) (j_vel j)) ->
  moderate (j_pos j) -> numeric (j_cmd j) -> period_ok finite dt ->
  bounded (max_velocity l) (j_cmd (vel_soft_enforce (vel_soft_make l s) j dt)).
Proof.
  intros Hv Bv Hs Ha Tp Nc Hdt.
  assert (E : vf_max (vel_soft_make l s) = max_velocity l) by (simpl; now rewrite Hv).
  pose proof (vel_soft_spec double_laws l (vel_soft_make l s) j dt) as H. rewrite E in H.
  apply H; auto.
  - split; [reflexivity|]. rewrite E. split; [exact Bv|]. split; [exact Hs|]. apply Ha.
  - apply Ha.
Qed.
Print Assumptions C53_velocity_limit.
Example C53_velocity_limit_example :
  has_velocity_limits (lx true) = true /\ bound_ok finite (max_velocity (lx true)) /\
  soft_ok moderate sx /\ bound_ok finite (max_acceleration (lx true)) /\
  bounded (max_velocity (lx true)) half /\
  shows (j_cmd (vel_soft_enforce (vel_soft_make (lx true) sx) (jx d0 seven8 d16) eighth)) d1.
Proof. num. Qed.

(** * C100: when limiters refuse *)
Theorem C100_constructors {A : arith} c (l : limits A) s : constructed c l s <->
  ((needs_velocity c = true -> has_velocity_limits l = true) /\
   (needs_effort c = true -> has_effort_limits l = true)).
Proof. exact (constructed_iff c l s). Qed.
Print Assumptions C100_constructors.
Theorem C100_soft_position_period {A : arith} (h : pos_soft A) j dt :
  pos_soft_enforce h j dt = None <-> ~ lt (zero A) dt.
Proof. exact (soft_abort h j dt). Qed.
Print Assumptions C100_soft_position_period.
Theorem C100_velocity_period {A : arith} (h : vel_sat A) j dt :
  vel_sat_enforce h j dt = None <->
  has_acceleration_limits (vs_limits h) = true /\ ~ lt (zero A) dt.
Proof. exact (vel_abort h j dt). Qed.
Print Assumptions C100_velocity_period.
Example C100_example :
  constructed PosSoft (lx true) sx /\
  ~ constructed VelSat (mkLimits d0 d1 d1 d4 d0 d16 true false true false true false) sx /\
  ~ constructed EffSoft (mkLimits d0 d1 d1 d4 d0 d16 true true true false false false) sx /\
  constructed PosSoft (mkLimits d0 d1 d1 d4 d0 d16 true true true false false false) sx /\
  ~ lt (zero double) d0 /\ ~ lt (zero double) (nan double) /\ lt (zero double) ms8.
Proof.
  rewrite !C100_constructors. simpl. unfold lt. repeat split; try discriminate; auto;
    intros H; try (destruct H as [H1 H2]); try discriminate; auto; first [specialize (H1 eq_refl); discriminate|specialize (H2 eq_refl); discriminate].
Qed.

(** * C57: the order in which an interface limits its joints *)
Theorem C57_name_order {A : arith} {H : Type}
  (enf : H -> joint A -> num A -> option (H * joint A)) (regs : list (string * lim_handle H)) js dt :
  let m := fold_left (fun m r => lim_register m (fst r) (snd r)) regs [] in
  (* the handles are kept in the order of their names ... *)
  StronglySorted slt (skeys m) /\
  (* ... and limited in that order, each finding what those before it have written *)
  forall m1 m2, m = m1 ++ m2 ->
  lim_enforce enf m js dt =
  match lim_enforce enf m1 js dt with
  | None => None
  | Some (m1', js1) =>
      match lim_enforce enf m2 js1 dt with
      | None => None
      | Some (m2', js2) => Some (m1' ++ m2', js2)
      end
  end.
Proof.
  cbv zeta. split.
  - assert (G : forall m : lim_iface H, ssorted m ->
      ssorted (fold_left (fun m r => lim_register m (fst r) (snd r)) regs m)).
    { induction regs as [|r regs IH]; intros m Hm; simpl; auto. apply IH. now apply sset_sorted. }
    apply G. constructor.
  - intros m1 m2 ->. apply lim_enforce_app.
Qed.
Print Assumptions C57_name_order.
(** What is registered under a name is the handle registered last under it. *)
Theorem C57_last_registered {H : Type} (regs : list (string * lim_handle H)) n :
  lim_get (fold_left (fun m r => lim_register m (fst r) (snd r)) regs []) n =
  option_map snd (find (fun r => String.eqb (fst r) n) (rev regs)).
Proof.
  destruct (fold_sset fst snd regs ([] : smap (lim_handle H)) n sset_nil_sorted) as [_ E]. cbv zeta in E. unfold lim_get, lim_register.
  transitivity (sfind n (fold_left (fun m r => sset (fst r) (snd r) m) regs ([] : smap (lim_handle H)))); [reflexivity|]. rewrite E.
  destruct (find _ _); reflexivity.
Qed.
Print Assumptions C57_last_registered.
Theorem C57_one_handle {A : arith} {H : Type}
  (enf : H -> joint A -> num A -> option (H * joint A)) n (h : lim_handle H) js dt :
  lim_enforce enf [(n, h)] js dt =
  match enf (lh_state h) (js (lh_joint h)) dt with
  | None => None
  | Some (s, j) => Some ([(n, mkLim s (lh_joint h))], set_joint js (lh_joint h) j)
  end.
Proof. simpl. destruct (enf _ _ _) as [[s j]|]; reflexivity. Qed.
Print Assumptions C57_one_handle.
(** Two handles of the same joint, registered as "b" (at most 1) and "a" (at most 1/8, below):
    "a" comes first, so the joint ends with what "b" makes of the command "a" wrote. *)
Definition lim_at (lo hi : num double) : limits double :=
  mkLimits lo hi d1 d4 d0 d16 true false false false true false.
Example C57_order_example :
  let m := fold_left (fun m r => lim_register m (fst r) (snd r))
             [("b", mkLim (pos_sat_make (lim_at half d1)) 0%nat);
              ("a", mkLim (pos_sat_make (lim_at (neg d1) eighth)) 0%nat)] [] in
  skeys m = ["a"; "b"] /\
  match lim_enforce enf_ps m (fun _ => jx d0 d0 d16) ms8 with
  | Some (_, js') => shows (j_cmd (js' 0%nat)) half
  | None => False
  end.
Proof. vm_compute. auto. Qed.
