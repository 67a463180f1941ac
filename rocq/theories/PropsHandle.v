(** Property theorems about handles. *)
From Coq Require Import List String Bool Arith Lia.
From Verif Require Import HwTypes SMap ConflictModel HwModel HwSpec HwProofs PropsHw HandleModel HandleSpec HandleProofs.
Import ListNotations.
Local Open Scope string_scope.
Local Open Scope list_scope.

(** * C93 *)
Theorem C93_null_refused {V} (s : pst V) c o k src args x name :
  act_of c = Make o k src args ->
  (src = inl name \/ exists js, src = inr js /\ nth_error (p_vars s) js = Some x /\ owner_of x = o /\ sh_name (state_of x) = name) ->
  match first_null args with
  | Some r => exec s c = (s, Thrown (refusal name r))
  | None => snd (exec s c) = Done /\ p_mem (fst (exec s c)) = p_mem s /\
            exists h, p_vars (fst (exec s c)) = p_vars s ++ [h] /\ sh_name (state_of h) = name /\ owner_of h = o
  end.
Proof.
  intros E S.
  destruct c; simpl in E; try discriminate E; injection E as <- <- <- <-;
  (destruct S as [S|(js' & S & Nx & Ow & Nm)]; [injection S as <- || discriminate S|injection S as <- || discriminate S]);
  simpl; unfold sh_make, sh_make_both, sh_make_abs, sh_make_tq, check.
  1-4: repeat (match goal with |- context [match ?p with Some _ => _ | None => _ end] => is_var p; destruct p; simpl; auto end);
       (split; [reflexivity|split; [reflexivity|eexists; split; [reflexivity|split; reflexivity]]]).
  all: unfold with_js, with_var; rewrite Nx, Ow; unfold ch_make, pva_make, pvt_make, pv_make, check, bind; rewrite Nm.
  1: match goal with |- context [match ?p with Joint => _ | Actuator => _ end] => is_var p; destruct p end.
  all: repeat (match goal with |- context [match ?p with Some _ => _ | None => _ end] => is_var p; destruct p; simpl; auto end).
  all: (split; [reflexivity|split; [reflexivity|eexists; split; [reflexivity|split; [exact Nm|reflexivity]]]]).
Qed.
Print Assumptions C93_null_refused.
(** Sensor handles take any pointer. *)
Theorem C93_sensors_unchecked_refuted name frame : exists h h', ft_make name frame None None = Ret h /\ ft_force h = None /\
  imu_make name frame None None None None None None = Ret h' /\ imu_ori h' = None.
Proof. do 2 eexists. repeat split. Qed.
Print Assumptions C93_sensors_unchecked_refuted.
Example C93_example :
  exec (start (fun _ => 0)) (NewStateAbs Joint "j1" (Some 1) None (Some 3) None) = (start (fun _ => 0), Thrown "Cannot create handle 'j1'. Velocity data pointer is null.") /\
  snd (exec (start (fun _ => 0)) (NewStateTq Joint "j1" (Some 1) (Some 2) (Some 3) (Some 4))) = Done /\
  sees (fun _ => 0) [NewState Joint "j1" (Some 1) (Some 2) (Some 3); NewPvt 0 (Some 1) (Some 4) (Some 5) None (Some 6)] =
    [Done; Thrown "Cannot create handle 'j1'. Command position gain data pointer is null."].
Proof. repeat split. Qed.

(** * C94 *)
Theorem C94_no_null_access {V} (init : mem V) prog : Forall no_default prog -> ~ In Aborted (sees init prog).
Proof.
  intros F. unfold sees. rewrite (proj2 (refine_all init prog (start init) (mkS [] []) (rel_start init))).
  apply checked_all; auto. constructor.
Qed.
Print Assumptions C94_no_null_access.
(** A handle made without arguments, and a command handle made from one, pass construction and fail on use. *)
Theorem C94_default_state_handle_refuted {V} (init : mem V) (x : V) :
  sees init [NewDefault Joint; NewCmd Joint 0 (Some 1); SetCmd 1 x; GetCmd 1; GetPos 1] = [Done; Done; Done; Value x; Aborted].
Proof. reflexivity. Qed.
Print Assumptions C94_default_state_handle_refuted.
Example C94_example : let prog := [NewStateAbs Joint "j1" (Some 1) (Some 2) (Some 3) (Some 4); NewCmd Joint 0 (Some 5); GetAbs 1; GetTq 1] in
  Forall no_default prog /\
  sees (fun a => 10 * a) prog = [Done; Done; Value 40; Thrown "Joint state handle does not contain torque sensor information"].
Proof. split; [repeat constructor|reflexivity]. Qed.

(** * C95 *)
Theorem C95_program_meaning {V} (init : mem V) prog :
  let t := aexec_all init (mkS [] []) (map act_of prog) in
  sees init prog = snd t /\ forall a, holds_after init prog a = content init (s_log (fst t)) a.
Proof.
  destruct (refine_all init prog (start init) (mkS [] []) (rel_start init)) as [A B].
  split; [exact B|]. intros a. apply (r_mem _ _ _ A).
Qed.
Print Assumptions C95_program_meaning.
Theorem C95_last_write {V} (init : mem V) log a :
  (~ In a (map fst log) /\ content init log a = init a) \/
  exists before x after, log = before ++ (a, x) :: after /\ ~ In a (map fst after) /\ content init log a = x.
Proof.
  revert init. induction log as [|[b x] log IH]; intros init; simpl.
  - left. tauto.
  - destruct (IH (fun c => if Nat.eqb c b then x else init c)) as [[N E]|(l1 & y & l2 & E1 & N & E2)].
    + cbv beta in E. rewrite E. destruct (Nat.eqb_spec a b) as [->|D].
      * right. exists [], x, log. auto.
      * left. split; auto. intros [Q|Q]; auto.
    + right. exists ((b, x) :: l1), y, l2. subst log. auto.
Qed.
Print Assumptions C95_last_write.
Example C95_example : let prog := [NewState Joint "j" (Some 1) (Some 2) (Some 3); NewPosVelAcc 0 (Some 4) (Some 5) (Some 6); NewPosVel 0 (Some 5) (Some 4);
    SetPosVelAcc 1 7 8 9; GetCmdPos 2; SetPos 2 11; GetCmdVel 1; Write 2 12; GetVel 1] in
  sees (fun _ => 0) prog = [Done; Done; Done; Done; Value 8; Done; Value 11; Done; Value 12] /\
  map (holds_after (fun _ => 0) prog) [1; 2; 3; 4; 5; 6] = [0; 12; 0; 7; 11; 9].
Proof. repeat split. Qed.

(** * C96 *)
Theorem C96_command_round_trip {V} (init : mem V) prog c h vals l hd :
  let s := fst (exec_all (start init) prog) in
  let t := fst (aexec_all init (mkS [] []) (map act_of prog)) in
  act_of c = Set_ h vals -> nth_error (s_handles t) h = Some hd ->
  forallb (fun v => offers (a_kind hd) (fst v)) vals = true -> targets (a_cells hd) vals = Some l ->
  snd (exec s c) = Done /\
  (forall a, ~ In a (map fst l) -> p_mem (fst (exec s c)) a = p_mem s a) /\
  (NoDup (map fst l) -> forall r x a h2 hd2 r2 g, In (r, x) vals -> cell (a_cells hd) r = Some a ->
     nth_error (s_handles t) h2 = Some hd2 -> offers (a_kind hd2) r2 = true -> cell (a_cells hd2) r2 = Some a -> act_of g = Get h2 r2 ->
     snd (exec (fst (exec s c)) g) = Value x).
Proof.
  cbv zeta. intros E N F T.
  pose proof (proj1 (refine_all init prog (start init) (mkS [] []) (rel_start init))) as R.
  set (s := fst (exec_all (start init) prog)) in *. set (t := fst (aexec_all init (mkS [] []) (map act_of prog))) in *.
  pose proof (refine_step init s t c R) as [R1 S1]. rewrite E in R1, S1. simpl in R1, S1. rewrite N, F, T in R1, S1. simpl in R1, S1.
  split; [exact S1|].
  assert (Cn : forall a, p_mem (fst (exec s c)) a = content (p_mem s) l a).
  { intros a. rewrite (r_mem _ _ _ R1). simpl. rewrite content_app. apply content_ext.
    intros b. symmetry. apply (r_mem _ _ _ R). }
  split.
  - intros a Na. rewrite Cn. destruct (C95_last_write (p_mem s) l a) as [[_ Q]|(l1 & y & l2 & E1 & _)]; auto.
    exfalso. apply Na. rewrite E1, map_app, in_app_iff. simpl. auto.
  - intros ND r x a h2 hd2 r2 g I Ca N2 O2 C2 Eg.
    pose proof (refine_step init (fst (exec s c)) _ g R1) as [_ S2]. rewrite Eg in S2. simpl in S2. rewrite N2, O2, C2 in S2. simpl in S2.
    rewrite S2, content_app. f_equal.
    assert (Il : In (a, x) l).
    { clear - T I Ca. revert l T. induction vals as [|[r' x'] vals IH]; simpl in *; intros l T; [contradiction|].
      destruct (cell (a_cells hd) r') as [b|] eqn:Cb; [|discriminate]. destruct (targets (a_cells hd) vals) as [l'|]; [|discriminate].
      injection T as <-. destruct I as [I|I]; [injection I as -> ->; left; congruence|right; apply IH; auto]. }
    destruct (C95_last_write (content init (s_log t)) l a) as [[Q _]|(l1 & y & l2 & E1 & Nl & Q)].
    + exfalso. apply Q. apply (in_map fst _ _ Il).
    + rewrite Q. subst l. apply in_app_iff in Il as [Il|[Il|Il]].
      * exfalso. rewrite map_app in ND. simpl in ND. apply NoDup_remove_2 in ND. apply ND.
        apply in_app_iff. left. apply (in_map fst _ _ Il).
      * injection Il as ->. reflexivity.
      * exfalso. apply Nl. apply (in_map fst _ _ Il).
Qed.
Print Assumptions C96_command_round_trip.
(** With a cell given twice the later command of the same call wins. *)
Theorem C96_shared_cell_refuted {V} (init : mem V) (p v : V) :
  sees init [NewState Joint "j" (Some 1) (Some 2) (Some 3); NewPosVel 0 (Some 4) (Some 4); SetPosVel 1 p v; GetCmdPos 1] = [Done; Done; Done; Value v].
Proof. reflexivity. Qed.
Print Assumptions C96_shared_cell_refuted.
Example C96_example :
  let prog := [NewState Joint "j" (Some 1) (Some 2) (Some 3); NewPvt 0 (Some 4) (Some 5) (Some 6) (Some 7) (Some 8)] in
  let t := fst (aexec_all (fun _ => 0) (mkS [] []) (map act_of prog)) in
  exists hd l, act_of (SetPvt 1 10 11 12 13 14) = Set_ 1 [(KPos, 10); (KVel, 11); (KEff, 12); (KKp, 13); (KKd, 14)] /\
    nth_error (s_handles t) 1 = Some hd /\ forallb (fun v => offers (a_kind hd) (fst v)) [(KPos, 10); (KVel, 11); (KEff, 12); (KKp, 13); (KKd, 14)] = true /\
    targets (a_cells hd) [(KPos, 10); (KVel, 11); (KEff, 12); (KKp, 13); (KKd, 14)] = Some l /\ map fst l = [4; 5; 6; 7; 8].
Proof. cbv zeta. do 2 eexists. repeat split. Qed.

(** * C97 *)
Theorem C97_mode_round_trip name p (m : mem jmode) x :
  match p with
  | None => exists msg, mh_make name p = Raise msg
  | Some a => exists h m', mh_make name p = Ret h /\ mh_name h = name /\ set_mode m h x = Ret m' /\ get_mode m' h = Ret x /\
                forall b, b <> a -> m' b = m b
  end.
Proof.
  destruct p as [a|]; simpl; [|eauto].
  exists (mkMH name (Some a)), (fun b => if Nat.eqb b a then x else m b). repeat split.
  - unfold get_mode. simpl. rewrite Nat.eqb_refl. reflexivity.
  - intros b N. destruct (Nat.eqb_spec b a); [contradiction|reflexivity].
Qed.
Print Assumptions C97_mode_round_trip.
Definition named (x : jmode) : Prop := match x with Other _ => False | _ => True end.
Theorem C97_mode_names x y : mode_name x = mode_name y -> x = y \/ ~ named x /\ ~ named y.
Proof. destruct x, y; simpl; intros E; try discriminate E; auto. Qed.
Print Assumptions C97_mode_names.
Example C97_example : named MODE_EFFORT /\ mode_name MODE_EFFORT = "effort" /\ mode_name (Other 9) = "unknown".
Proof. repeat split. Qed.

(** * C98 *)
Theorem C98_who_claims cls ops n :
  In n (ho_claims (iface_run (claims_of cls) ops)) <-> In cls commands_joint /\ obtained ops n.
Proof.
  rewrite C32_claims. split; intros [A B]; split; auto.
  - destruct cls; simpl in *; try discriminate A; tauto.
  - destruct cls; simpl in *; auto; repeat (destruct A as [A|A]; [discriminate A|]); contradiction.
Qed.
Print Assumptions C98_who_claims.
Theorem C98_joint_conflict infos i j ci cj fi fj clsi clsj opsi opsj n :
  i <> j -> nth_error infos i = Some ci -> nth_error infos j = Some cj -> In fi (ci_claims ci) -> In fj (ci_claims cj) ->
  ir_res fi = ho_claims (iface_run (claims_of clsi) opsi) -> ir_res fj = ho_claims (iface_run (claims_of clsj) opsj) ->
  In clsi commands_joint -> In clsj commands_joint -> obtained opsi n -> obtained opsj n ->
  check_for_conflict infos = true.
Proof.
  intros D Hi Hj Fi Fj Ei Ej Ci Cj Oi Oj.
  apply (C33_two_controllers infos i j ci cj fi fj n); auto.
  - rewrite Ei. apply C98_who_claims. auto.
  - rewrite Ej. apply C98_who_claims. auto.
Qed.
Print Assumptions C98_joint_conflict.
(** Controllers commanding actuators never conflict, even on the same actuator. *)
Theorem C98_actuators_unprotected_refuted infos :
  (forall c f, In c infos -> In f (ci_claims c) -> exists cls ops, In cls commands_actuator /\ ir_res f = ho_claims (iface_run (claims_of cls) ops)) ->
  check_for_conflict infos = false.
Proof.
  intros H. destruct (check_for_conflict infos) eqn:E; auto. exfalso.
  apply C33_conflict_exact in E as (r & [[i a] x] & q & _ & (c & f & N1 & N2 & N3) & _).
  destruct (H c f (nth_error_In _ _ N1) (nth_error_In _ _ N2)) as (cls & ops & I & E).
  apply nth_error_In in N3. rewrite E in N3. apply C98_who_claims in N3 as [J _].
  simpl in I, J. repeat (destruct I as [<-|I]; [repeat (destruct J as [J|J]; [discriminate J|]); contradiction|]). contradiction.
Qed.
Print Assumptions C98_actuators_unprotected_refuted.
Example C98_example :
  let ops := [IReg (mkHandle "m1" 1); IGet "m1"] in
  ho_claims (iface_run (claims_of EffortJointI) ops) = ["m1"] /\
  (let two cls := [mkInfo "a" "T" [mkIface "i" (ho_claims (iface_run (claims_of cls) ops))];
                   mkInfo "b" "T" [mkIface "i" (ho_claims (iface_run (claims_of cls) ops))]] in
   check_for_conflict (two EffortJointI) = true /\ check_for_conflict (two EffortActuatorI) = false).
Proof. vm_compute; auto. Qed.

(** * C109 *)
(** The text of the exception of a pointer accessor differs from that of the value accessor in one case. *)
Definition absent_ptr (o : owner) (r : role) : string :=
  match o, r with Joint, RAbs => "Joint state handle does not contain absolute position sensor information" | _, _ => absent o r end.
Theorem C109_pointers {V} (init : mem V) prog n x :
  let s := fst (exec_all (start init) prog) in
  let t := fst (aexec_all init (mkS [] []) (map act_of prog)) in
  nth_error (p_vars s) n = Some x ->
  exists hd, nth_error (s_handles t) n = Some hd /\
    get_position_ptr (state_of x) = cell (a_cells hd) RPos /\ get_velocity_ptr (state_of x) = cell (a_cells hd) RVel /\
    get_effort_ptr (state_of x) = cell (a_cells hd) REff /\
    (has_absolute (state_of x) = true <-> cell (a_cells hd) RAbs <> None) /\ (has_torque (state_of x) = true <-> cell (a_cells hd) RTq <> None) /\
    get_absolute_ptr (owner_of x) (state_of x) =
      match cell (a_cells hd) RAbs with Some a => Ret (Some a) | None => Raise (absent_ptr (a_owner hd) RAbs) end /\
    get_torque_ptr (owner_of x) (state_of x) =
      match cell (a_cells hd) RTq with Some a => Ret (Some a) | None => Raise (absent_ptr (a_owner hd) RTq) end /\
    (forall o c, x = VCmd o c -> Forall no_default prog -> exists a, get_command_ptr o c = Ret (Some a) /\ cell (a_cells hd) KCmd = Some a).
Proof.
  cbv zeta. intros N.
  pose proof (proj1 (refine_all init prog (start init) (mkS [] []) (rel_start init))) as R.
  pose proof (nth_rel init _ _ n R) as Q. rewrite N in Q. destruct (nth_error _ n) as [hd|] eqn:Eh in Q; [|contradiction].
  exists hd. split; [exact Eh|]. destruct Q as [Qo Qk _ Qc].
  pose proof (Qc RPos) as Q1. pose proof (Qc RVel) as Q2. pose proof (Qc REff) as Q3. pose proof (Qc RAbs) as Q4. pose proof (Qc RTq) as Q5. simpl in Q1, Q2, Q3, Q4, Q5.
  unfold get_absolute_ptr, get_torque_ptr, has_absolute, has_torque. rewrite <- Q4, <- Q5, <- Qo. repeat (split; [assumption|]).
  split; [destruct (sh_abs _); split; congruence|]. split; [destruct (sh_tq _); split; congruence|].
  split; [destruct (sh_abs _); [reflexivity|]; destruct (owner_of x); reflexivity|].
  split; [destruct (sh_tq _); [reflexivity|]; destruct (owner_of x); reflexivity|].
  intros o c -> F. pose proof (Qc KCmd) as Q6. simpl in Q6.
  destruct (command_cell init prog n hd F Eh) as [a Ea]; [now rewrite <- Qk|].
  exists a. split; [|exact Ea]. rewrite Ea in Q6. unfold get_command_ptr. rewrite Q6. now destruct o.
Qed.
Print Assumptions C109_pointers.
(** Sensor handles hand out exactly what they were made from, also when made from a copy of their data. *)
Theorem C109_sensors :
  (forall name frame force torque, exists h, ft_make name frame force torque = Ret h /\
     (ft_name h, ft_frame h, ft_force h, ft_torque h) = (name, frame, force, torque)) /\
  (forall name frame ori oricov ang angcov lin lincov, exists h, imu_make name frame ori oricov ang angcov lin lincov = Ret h /\ imu_of_data h = Ret h /\
     (imu_name h, imu_frame h) = (name, frame) /\ (imu_ori h, imu_oricov h, imu_ang h, imu_angcov h, imu_lin h, imu_lincov h) = (ori, oricov, ang, angcov, lin, lincov)).
Proof. split; intros; eexists; repeat split. Qed.
Print Assumptions C109_sensors.
Example C109_example : let prog := [NewStateAbs Joint "j1" (Some 1) (Some 2) (Some 3) (Some 4); NewCmd Joint 0 (Some 5)] in
  let vars := p_vars (fst (exec_all (start (fun _ => 0)) prog)) in
  exists c, nth_error vars 1 = Some (VCmd Joint c) /\ get_command_ptr Joint c = Ret (Some 5) /\ get_velocity_ptr (state_of (VCmd Joint c)) = Some 2 /\
    get_absolute_ptr Joint (state_of (VCmd Joint c)) = Ret (Some 4) /\ get_torque_ptr Joint (state_of (VCmd Joint c)) = Raise "Joint state handle does not contain torque sensor information".
Proof. eexists. repeat split. Qed.
