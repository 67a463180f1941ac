(** Property theorems about the joint interfaces a transmission loader adds to a robot. *)
From Verif Require Import HwTypes SMap SMapProofs Lifecycle ConflictModel CMModel CMSpec CMSeqSpec HwModel HwSpec HwProofs HwMgr HwBuilt CombModel CombSpec CombProofs
  CMFinal SysModel SysSpec PropsSys JointHwModel JointHwSpec JointHwProofs.
Local Open Scope string_scope.
Local Open Scope list_scope.
Local Open Scope nat_scope.

(** A robot with an interface for its actuators; the loader's own interfaces are the objects 1 to 4. *)
Definition kdj (T : string) : tkind :=
  mkKind true (existsb (String.eqb T) [jtype JPosition; jtype JVelocity; jtype JEffort]).
Definition wj : world := mkWorld (fun i => if Nat.eqb i 0 then mkObj (registry [mkHandle "m1" 0; mkHandle "m2" 1]) [] else mkObj [] []) 5.
Definition acts_type := "hardware_interface::ActuatorStateInterface".
Definition mj : mgr := match register_interface (kdj acts_type) wj mgr_new acts_type (Some 0) with Some m => m | None => mgr_new end.
Definition ownj (j : jface) : nat := match j with JState => 1 | JPosition => 2 | JVelocity => 3 | JEffort => 4 end.
Definition varj (j : jface) (n : string) : nat := 10 * ownj j.
Definition us0 : list (jface * list string) := [(JPosition, ["j1"; "j2"]); (JState, ["j3"]); (JEffort, ["j2"])].
Lemma built_mj : built kdj wj mj.
Proof.
  eapply (BReg _ _ mgr_new acts_type 0); try reflexivity; [|cbn; lia]. apply BNew. intros i. destruct i as [|i]; eexists; [reflexivity|]. instantiate (1 := []). reflexivity.
Qed.
Lemma unused_mj : unused ownj mj wj.
Proof.
  constructor.
  - intros j H. inversion H as [? ? ? ? ? p E|? ? ? ? ? s Hs Hh]; subst; [destruct j; discriminate E|destruct Hs].
  - intros j j' E. destruct j, j'; try reflexivity; discriminate E.
  - intros j. destruct j; cbn; lia.
  - intros j. destruct j; reflexivity.
Qed.

(** * C116: joints from transmissions *)
(** Whatever transmissions are loaded, in any number of calls, on a robot without joint interfaces of its own: no call fails,
    the robot then has exactly the joint interfaces asked for, with exactly the joints asked for; its other interfaces are as before. *)
Theorem C116_joints_there kd own var us m w : built kd w m -> unused own m w -> exists m' w',
  update_all own var us m w = Some (m', w') /\
  (forall j, In (jtype j) (im_names m') <-> asked us j) /\
  (forall j, asked us j -> exists i, get (jkind j) (jtype j) m' w' = (m', w', Some i) /\
     forall n, rm_get (ho_map (w_obj w' i)) n <> None <-> asked_joint us j n) /\
  (forall T, (forall j, T <> jtype j) -> leaves T m' = leaves T m /\ (In T (im_names m') <-> In T (im_names m))) /\
  (forall i, (forall j, i <> own j) -> w_obj w' i = w_obj w i).
Proof.
  intros Hb Hu. destruct (update_all_spec kd own var us m w Hb Hu) as (m' & w' & E & A & B & _ & C & D). exists m', w'. split; [exact E|].
  split; [intros j; rewrite names_in; symmetry; apply A|]. split; [intros j Hj; exists (own j); apply B, Hj|]. split; [|exact D].
  intros T HT. rewrite !names_in. apply C, HT.
Qed.
Print Assumptions C116_joints_there.
(** But they are not among the resources the robot lists, neither at once nor after any further load: the list is taken when
    the interface is registered, before it has joints. *)
Theorem C116_not_listed_refuted kd own var us m w : built kd w m -> unused own m w -> exists m' w',
  update_all own var us m w = Some (m', w') /\ forall j, iface_resources (jtype j) m' = [].
Proof.
  intros Hb Hu. destruct (update_all_spec kd own var us m w Hb Hu) as (m' & w' & E & _ & _ & R & _). exists m', w'. split; [exact E|].
  intros j. rewrite R. destruct (built_inv _ _ _ Hb) as (_ & _ & _ & Hr). rewrite (Hr (jtype j)).
  assert (L : leaves (jtype j) m = []).
  { pose proof (un_types _ _ _ Hu j) as N. rewrite (has_type_leaves _ _ _ _ Hb) in N. destruct (leaves (jtype j) m); [reflexivity|]. destruct N. discriminate. }
  rewrite L. now destruct (tk_rm _).
Qed.
Print Assumptions C116_not_listed_refuted.
(** So, as part of a combined robot, it is told nothing about the controllers that use these joints. *)
Theorem C116_not_told_refuted kd own var us m w : built kd w m -> unused own m w -> exists m' w',
  update_all own var us m w = Some (m', w') /\
  forall c, claim_sets [c] -> ci_claims c <> [] -> (forall f, In f (ci_claims c) -> exists j, ir_iface f = jtype j) -> filter_list m' [c] = [].
Proof.
  intros Hb Hu. destruct (C116_not_listed_refuted kd own var us m w Hb Hu) as (m' & w' & E & R). exists m', w'. split; [exact E|].
  intros c Hs Hn Hf. rewrite (filter_list_eq m' [c] Hs). unfold concerned. cbn [filter].
  assert (T : touches (has_of m') c = false).
  { unfold touches. clear Hn Hs. induction (ci_claims c) as [|f fs IH]; [reflexivity|]. cbn [existsb]. rewrite IH by (intros g Hg; apply Hf; now right). rewrite orb_false_r.
    destruct (Hf f (or_introl eq_refl)) as (j & Ej). apply Bool.not_true_is_false. intros H. apply existsb_exists in H. destruct H as (r & _ & H).
    unfold has_of in H. rewrite Ej, (R j) in H. cbn in H. now rewrite andb_false_r in H. }
  destruct (ci_claims c) as [|f fs] eqn:E1; [congruence|]. now rewrite T.
Qed.
Print Assumptions C116_not_told_refuted.

(** The robot after loading, and a combined robot with it as its only part. *)
Definition after_j : mgr * world := match update_all ownj varj us0 mj wj with Some r => r | None => (mj, wj) end.
Definition robj : robot := mkRobot (register_manager mgr_new (fst after_j)) (snd after_j) [mkPart 0 (fst after_j)].
Definition qj : request := Single (jtype JPosition) (mkBody [(None, "j1", false)] (Some true)) fin.
Example C116_example : built kdj wj mj /\ unused ownj mj wj /\
  update_all ownj varj us0 mj wj = Some after_j /\
  rm_names (ho_map (w_obj (snd after_j) (ownj JState))) = ["j1"; "j2"; "j3"] /\
  rm_names (ho_map (w_obj (snd after_j) (ownj JPosition))) = ["j1"; "j2"] /\ rm_names (ho_map (w_obj (snd after_j) (ownj JEffort))) = ["j2"] /\
  im_names (fst after_j) = [acts_type; jtype JEffort; jtype JState; jtype JPosition] /\
  iface_resources acts_type (fst after_j) = ["m1"; "m2"].
Proof. split; [exact built_mj|]. split; [exact unused_mj|]. repeat split; vm_compute; reflexivity. Qed.
(** A controller that commands one of the joints is loaded and started; the manager announces it to the robot, but the part
    that has the joint is told of a switch of no controllers. *)
Theorem C116_switched_unseen_refuted : exists ops start,
  let tr := sys_trace kdj ld0 robj ops in
  In (Of (EvDo [start] [])) tr /\ ci_claims start = [mkIface (jtype JPosition) ["j1"]] /\
  provides (rb_world robj) (pt_mgr (mkPart 0 (fst after_j))) (jtype JPosition) "j1" /\
  of_parts tr = [PPrepare 0 [] [] true; PDo 0 [] []].
Proof.
  exists [SLoad "A" true (Some "T") qj; ssw ["A"] []; SCycle 101 1 false (fun _ => DONE); SPoll 102 true true], (mkInfo "A" "T" [mkIface (jtype JPosition) ["j1"]]).
  cbv zeta. split; [vm_compute; tauto|]. split; [reflexivity|]. split; [exists 2; split; [vm_compute; auto|vm_compute; discriminate]|]. vm_compute. reflexivity.
Qed.
Print Assumptions C116_switched_unseen_refuted.
