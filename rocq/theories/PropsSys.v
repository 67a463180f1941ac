(** Property theorems about a controller manager on a robot. *)
From Verif Require Import HwTypes Lifecycle SMap ConflictModel CMModel CMSpec CMInv CMFinal CMSeqSpec HwModel HwSpec HwProofs HwMgr HwBuilt HwInit HwClaims PropsHw
  CombModel CombSpec CombProofs PropsComb SysModel SysSpec SysProofs SysInv SysMain SysRest SysLoad CMLoad.
Open Scope Z_scope.
Local Open Scope string_scope.
Local Open Scope list_scope.

(** The robot of the examples has the two parts [parts0].  Controller "A" uses both parts, "B" and "C" want the same joint. *)
Definition rob0 : robot := mkRobot (register_manager (register_manager mgr_new arm0) sub0) w0 parts0.
Definition fin {R} : body R := mkBody [] (Some true).
Definition qA : request := Single "pos" (mkBody [(None, "a", false)] (Some true)) (mkBody [(None, "c", false); (None, "zz", true)] (Some true)).
Definition qB : request := Multi true ["state"; "eff"; "pos"] (mkBody [("state", "a", false); ("pos", "b", false)] (Some true)) fin.
Definition qC : request := Single "pos" (mkBody [(None, "b", false)] (Some true)) fin.
Definition ready : nat -> list cinfo -> list cinfo -> bool := fun _ _ _ => true.
Definition shist : list sysop := [SLoad "A" true (Some "T") qA; SLoad "B" true (Some "T") qB; SLoad "C" true (Some "N") qC].
Definition ssw (a b : list string) : sysop := SSwitch a b STRICT false 0 100 ready.
Lemma kd0_managed : claiming_managed kd0.
Proof. intros T. unfold kd0. destruct (T =? "pos"); [reflexivity|]. destruct (T =? "state"); cbn; auto. Qed.
Lemma built_arm0 : built kd0 w0 arm0.
Proof.
  assert (W : world_ok w0) by (intros i; unfold w0, obj_of; destruct i as [|[|[|i]]]; cbn [w_obj ho_map]; eexists; reflexivity).
  eapply (BReg _ _ mgr_new "pos" 0); try reflexivity; [apply BNew; exact W|cbn; lia].
Qed.
Lemma built_rob0 : built kd0 (rb_world rob0) (rb_mgr rob0).
Proof.
  assert (W : world_ok w0) by (intros i; unfold w0, obj_of; destruct i as [|[|[|i]]]; cbn [w_obj ho_map]; eexists; reflexivity).
  apply BSub; [apply BSub; [apply BNew; exact W|apply built_arm0]|apply built_sub0].
Qed.
Lemma knows_rob0 : knows kd0 (rb_world rob0) (fun p => has_of (pt_mgr p)) (rb_parts rob0).
Proof.
  intros p [<-|[<-|[]]]; cbn [pt_mgr]; [split; [exact built_arm0|]|split; [exact built_sub0|]]; intros T r; apply has_of_tells'; [exact built_arm0|exact built_sub0].
Qed.
(** The histories of the examples. *)
Example ex_shist : sys_idle kd0 ld0 rob0 shist /\ none_abandoned shist /\ map pt_id (rb_parts rob0) = [0%nat; 1%nat] /\
  map (fun c => (ci_name (snd c), ci_claims (snd c))) (loaded (of_manager (sys_trace kd0 ld0 rob0 shist))) =
  [("A", [mkIface "pos" ["a"; "c"]]); ("B", [mkIface "state" []; mkIface "pos" ["b"]]); ("C", [mkIface "pos" ["b"]])].
Proof. split; [vm_compute; reflexivity|]. split; [repeat constructor|]. vm_compute. auto. Qed.

(** * C110: what the parts are told *)
(** A part performs a switch only if the last thing it was asked is to prepare for that very switch, and it agreed. *)
Theorem C110_part_protocol kd ls rb ops pre id x y post : NoDup (map pt_id (rb_parts rb)) ->
  sys_trace kd ls rb ops = pre ++ OfPart (PDo id x y) :: post -> last_hook id pre = Some (PPrepare id x y true).
Proof. exact (part_protocol kd ls rb ops pre id x y post). Qed.
Print Assumptions C110_part_protocol.
(** Whenever the robot performs a switch, every part does, in order, with its share of the controllers. *)
Theorem C110_every_part_switches kd ls rb has ops pre x y post :
  claiming_managed kd -> built kd (rb_world rb) (rb_mgr rb) -> none_abandoned ops -> knows kd (rb_world rb) has (rb_parts rb) ->
  sys_trace kd ls rb ops = pre ++ Of (EvDo x y) :: post ->
  exists post', post = map (fun p => OfPart (PDo (pt_id p) (concerned (has p) x) (concerned (has p) y))) (rb_parts rb) ++ post'.
Proof. intros Hk Hb. exact (told_do kd ls rb Hk Hb has ops pre x y post). Qed.
Print Assumptions C110_every_part_switches.
(** Whenever the robot is asked to prepare, the parts are asked in order up to the first that refuses. *)
Theorem C110_every_part_asked kd ls rb has ops pre x y ok post :
  claiming_managed kd -> built kd (rb_world rb) (rb_mgr rb) -> none_abandoned ops -> knows kd (rb_world rb) has (rb_parts rb) ->
  sys_trace kd ls rb ops = pre ++ Of (EvPrepare x y ok) :: post ->
  let asks p b := OfPart (PPrepare (pt_id p) (concerned (has p) x) (concerned (has p) y) b) in
  exists post', (ok = true /\ post = map (fun p => asks p true) (rb_parts rb) ++ post') \/
    (ok = false /\ exists before p rest, rb_parts rb = before ++ p :: rest /\ post = map (fun p => asks p true) before ++ asks p false :: post').
Proof. intros Hk Hb. exact (told_prepare kd ls rb Hk Hb has ops pre x y ok post). Qed.
Print Assumptions C110_every_part_asked.
(** An accepted request: the robot and all its parts are asked about it, and nothing else happens yet. *)
Theorem C110_accepted kd ls rb has ops a b z asap tmo now ans :
  claiming_managed kd -> built kd (rb_world rb) (rb_mgr rb) -> none_abandoned ops -> knows kd (rb_world rb) has (rb_parts rb) ->
  let sw := SSwitch a b z asap tmo now ans in let mt := of_manager (sys_trace kd ls rb ops) in
  sys_idle kd ls rb ops -> sys_reply kd ls rb ops sw = ANone ->
  sys_emits kd ls rb ops sw = Of (EvPrepare (to_start mt a) (to_stop mt b) true) ::
    map (fun p => OfPart (PPrepare (pt_id p) (concerned (has p) (to_start mt a)) (concerned (has p) (to_stop mt b)) true)) (rb_parts rb).
Proof. intros Hk Hb N K sw mt Hi Hr. exact (accept_emits kd ls rb Hk Hb ops a b z asap tmo now ans N Hi Hr has K). Qed.
Print Assumptions C110_accepted.
Example C110_example :
  sys_reply kd0 ld0 rob0 shist (ssw ["A"; "B"] []) = ANone /\
  of_parts (sys_trace kd0 ld0 rob0 (shist ++ [ssw ["A"; "B"] []; SCycle 101 1 false (fun _ => DONE)])) =
    let s0 := [mkInfo "A" "T" [mkIface "pos" ["a"]]; mkInfo "B" "T" [mkIface "pos" ["b"]]] in
    let s1 := [mkInfo "A" "T" [mkIface "pos" ["c"]]; mkInfo "B" "T" [mkIface "pos" ["b"]]] in
    [PPrepare 0 s0 [] true; PPrepare 1 s1 [] true; PDo 0 s0 []; PDo 1 s1 []].
Proof. vm_compute. auto. Qed.
Example C110_example_refused :
  let second_refuses := SSwitch ["A"] [] STRICT false 0 100 (fun id _ _ => Nat.eqb id 0) in
  sys_reply kd0 ld0 rob0 shist second_refuses = ABool false /\
  of_parts (sys_emits kd0 ld0 rob0 shist second_refuses) =
    [PPrepare 0 [mkInfo "A" "T" [mkIface "pos" ["a"]]] [] true; PPrepare 1 [mkInfo "A" "T" [mkIface "pos" ["c"]]] [] false].
Proof. vm_compute. auto. Qed.

(** * C111: the course of a switch on such a robot *)
(** The first cycle after the request does it all; what the parts would report does not matter. *)
Theorem C111_one_cycle kd ls rb ops a b z asap tmo now ans mid t p r states :
  let sw := SSwitch a b z asap tmo now ans in let mt := of_manager (sys_trace kd ls rb ops) in
  let after := ((ops ++ [sw]) ++ mid) ++ [SCycle t p r states] in
  none_abandoned ops -> sys_idle kd ls rb ops -> sys_reply kd ls rb ops sw = ANone -> sys_waiting kd ls rb (ops ++ [sw]) mid -> no_sys_cycle mid ->
  (forall c, In c (loaded mt) -> phase_of (of_manager (sys_trace kd ls rb after)) (fst c) =
     if named a c then PStarted else if named b c && runsb mt (fst c) then PStopped else phase_of mt (fst c)) /\
  sys_finished kd ls rb after true.
Proof. intros sw mt after N Hi Hr Hw Hq. exact (one_cycle kd ls rb ops a b z asap tmo now ans mid N Hi Hr Hw Hq t p r states). Qed.
Print Assumptions C111_one_cycle.
(** Its exact events: running controllers are updated, all parts switch, controllers are stopped, controllers are started. *)
Theorem C111_exact_course kd ls rb has ops a b z asap tmo now ans mid t p states :
  claiming_managed kd -> built kd (rb_world rb) (rb_mgr rb) -> knows kd (rb_world rb) has (rb_parts rb) ->
  let sw := SSwitch a b z asap tmo now ans in let mt := of_manager (sys_trace kd ls rb ops) in
  none_abandoned ops -> sys_idle kd ls rb ops -> sys_reply kd ls rb ops sw = ANone -> sys_waiting kd ls rb (ops ++ [sw]) mid -> no_sys_cycle mid ->
  (asap = true -> NoDup a) ->
  sys_emits kd ls rb ((ops ++ [sw]) ++ mid) (SCycle t p false states) =
    map (fun c => Of (EvCb (fst c) (CbUpdate p) t)) (running_list mt) ++
    Of (EvDo (to_start mt a) (to_stop mt b)) ::
    map (fun q => OfPart (PDo (pt_id q) (concerned (has q) (to_start mt a)) (concerned (has q) (to_stop mt b)))) (rb_parts rb) ++
    map Of (stops_of mt mt b t) ++
    map (fun c => Of (EvCb (fst c) CbStarting t)) (filter (fun c => negb (asap && runsb mt (fst c) && negb (named b c))) (requested mt a)).
Proof. intros Hk Hb K sw mt N Hi Hr Hw Hq Hn. exact (exact_course kd ls rb Hk Hb ops a b z asap tmo now ans mid N Hi Hr Hw Hq has t p states K Hn). Qed.
Print Assumptions C111_exact_course.
(** No controller is ever told to wait, nor that its start failed. *)
Theorem C111_never_waits kd ls rb ops i t : ~ In (Of (EvCb i CbWaiting t)) (sys_trace kd ls rb ops) /\ ~ In (Of (EvCb i CbAborting t)) (sys_trace kd ls rb ops).
Proof.
  pose proof (sys_calm kd ls rb ops) as H. rewrite Forall_forall in H.
  split; intros X.
  - assert (Y : In (EvCb i CbWaiting t) (of_manager (sys_trace kd ls rb ops))) by (unfold of_manager; apply in_flat_map; eexists; split; [exact X|left; reflexivity]). apply H in Y. exact Y.
  - assert (Y : In (EvCb i CbAborting t) (of_manager (sys_trace kd ls rb ops))) by (unfold of_manager; apply in_flat_map; eexists; split; [exact X|left; reflexivity]). apply H in Y. exact Y.
Qed.
Print Assumptions C111_never_waits.
(** So a controller runs although a part has not finished, or has failed, its switch. *)
Theorem C111_part_not_ready_refuted : exists kd ls rb ops states i, (exists p, In p (rb_parts rb) /\ states (pt_id p) = ERROR) /\
  ~ runs (of_manager (sys_trace kd ls rb ops)) i /\ runs (of_manager (sys_trace kd ls rb (ops ++ [SCycle 101 1 false states]))) i.
Proof.
  exists kd0, ld0, rob0, (shist ++ [ssw ["A"] []]), (fun _ => ERROR), 0%nat. split; [eexists; split; [left; reflexivity|reflexivity]|].
  split; [vm_compute; discriminate|vm_compute; reflexivity].
Qed.
Print Assumptions C111_part_not_ready_refuted.
Definition srun : list sysop := shist ++ [ssw ["A"; "B"] []; SCycle 101 1 false (fun _ => ONGOING); SPoll 101 true true].
Example C111_example : let sw := ssw ["C"] ["B"; "A"] in
  sys_idle kd0 ld0 rob0 srun /\ sys_reply kd0 ld0 rob0 srun sw = ANone /\
  sys_waiting kd0 ld0 rob0 (srun ++ [sw]) [SPoll 102 true true; SListControllers] /\ no_sys_cycle [SPoll 102 true true; SListControllers] /\
  of_manager (sys_emits kd0 ld0 rob0 ((srun ++ [sw]) ++ [SPoll 102 true true; SListControllers]) (SCycle 102 1 false (fun _ => ERROR))) =
    [EvCb 0 (CbUpdate 1) 102; EvCb 1 (CbUpdate 1) 102;
     EvDo [mkInfo "C" "N" [mkIface "pos" ["b"]]] [mkInfo "A" "T" [mkIface "pos" ["a"; "c"]]; mkInfo "B" "T" [mkIface "state" []; mkIface "pos" ["b"]]];
     EvCb 1 CbStopping 102; EvCb 0 CbStopping 102; EvCb 2 CbStarting 102].
Proof.
  cbv zeta. split; [vm_compute; reflexivity|]. split; [vm_compute; reflexivity|]. split; [vm_compute; auto|]. split; [repeat constructor|]. vm_compute. reflexivity.
Qed.

(** * C112: controllers that command the same resource never run together *)
Theorem C112_running_exclusive kd ls rb ops pre post i j : claiming_managed kd -> built kd (rb_world rb) (rb_mgr rb) -> none_abandoned ops ->
  sys_trace kd ls rb ops = pre ++ post -> runs (of_manager pre) i -> runs (of_manager pre) j ->
  exists q cl q' cl', initialised (sys_trace kd ls rb ops) i q cl /\ initialised (sys_trace kd ls rb ops) j q' cl' /\
    (i <> j -> forall n, ~ (commands kd (rb_world rb) (rb_mgr rb) q n /\ commands kd (rb_world rb) (rb_mgr rb) q' n)).
Proof.
  intros Hk Hb N E Ri Rj. destruct (running_request kd ls rb Hk Hb ops pre post i N E Ri) as (q & cl & Hi). destruct (running_request kd ls rb Hk Hb ops pre post j N E Rj) as (q' & cl' & Hj).
  exists q, cl, q', cl'. split; [exact Hi|]. split; [exact Hj|]. intros Hn n [C1 C2]. apply Hn. exact (exclusive_commands kd ls rb Hk Hb ops pre post i j q q' cl cl' n N E Ri Rj Hi Hj C1 C2).
Qed.
Print Assumptions C112_running_exclusive.
(** Which request an instance was initialised with is determined, so this is about all of its requests. *)
Theorem C112_one_request kd ls rb ops i q q' r r' : claiming_managed kd -> built kd (rb_world rb) (rb_mgr rb) ->
  In (Inited i q r) (sys_trace kd ls rb ops) -> In (Inited i q' r') (sys_trace kd ls rb ops) -> q = q' /\ r = r'.
Proof. intros Hk Hb A B. destruct (sinv_reach kd ls rb Hk Hb ops). eauto. Qed.
Print Assumptions C112_one_request.
(** Any read-only use is shared: "B" and "A" may run together although both ask for joint "a". *)
Example C112_example :
  runs (of_manager (sys_trace kd0 ld0 rob0 srun)) 0 /\ runs (of_manager (sys_trace kd0 ld0 rob0 srun)) 1 /\
  initialised (sys_trace kd0 ld0 rob0 srun) 0 qA [mkIface "pos" ["a"; "c"]] /\ initialised (sys_trace kd0 ld0 rob0 srun) 1 qB [mkIface "state" []; mkIface "pos" ["b"]] /\
  sys_reply kd0 ld0 rob0 srun (ssw ["C"] []) = ABool false.
Proof. split; [vm_compute; reflexivity|]. split; [vm_compute; reflexivity|]. split; [vm_compute; auto 10|]. split; [vm_compute; auto 10|]. vm_compute; reflexivity. Qed.

(** * C113: when a strict request is accepted *)
Theorem C113_accepted_iff kd ls rb has ops a b asap tmo now ans :
  claiming_managed kd -> built kd (rb_world rb) (rb_mgr rb) -> none_abandoned ops -> sys_idle kd ls rb ops -> knows kd (rb_world rb) has (rb_parts rb) ->
  let tr := sys_trace kd ls rb ops in let mt := of_manager tr in
  (sys_reply kd ls rb ops (SSwitch a b STRICT asap tmo now ans) = ANone <->
   (forall n, In n a \/ In n b -> known mt n) /\
   (forall c, In c (loaded mt) -> named b c = true -> runs mt (fst c)) /\
   (forall c, In c (loaded mt) -> named a c = true -> ~ runs mt (fst c)) /\
   (forall i j q q' cl cl' n, will_run mt a b i -> will_run mt a b j -> initialised tr i q cl -> initialised tr j q' cl' ->
      commands kd (rb_world rb) (rb_mgr rb) q n -> commands kd (rb_world rb) (rb_mgr rb) q' n -> i = j) /\
   (forall i q cl, will_run mt a b i -> initialised tr i q cl -> NoDup (flat_map ir_res cl)) /\
   (forall p, In p (rb_parts rb) -> ans (pt_id p) (concerned (has p) (to_start mt a)) (concerned (has p) (to_stop mt b)) = true)) /\
  (sys_reply kd ls rb ops (SSwitch a b STRICT asap tmo now ans) = ANone \/ sys_reply kd ls rb ops (SSwitch a b STRICT asap tmo now ans) = ABool false).
Proof. intros Hk Hb. exact (accepted_iff kd ls rb Hk Hb has ops a b asap tmo now ans). Qed.
Print Assumptions C113_accepted_iff.
Example C113_example :
  sys_reply kd0 ld0 rob0 shist (ssw ["A"; "B"] []) = ANone /\ sys_reply kd0 ld0 rob0 shist (ssw ["B"; "C"] []) = ABool false /\
  sys_reply kd0 ld0 rob0 srun (ssw ["C"] ["B"]) = ANone /\ sys_reply kd0 ld0 rob0 srun (ssw ["C"] ["A"]) = ABool false /\
  sys_reply kd0 ld0 rob0 shist (SSwitch ["C"] [] STRICT false 0 100 (fun _ l _ => match l with [] => true | _ => false end)) = ABool false.
Proof. vm_compute. auto 10. Qed.

(** * C114: on a combined robot every commanded resource reaches a part that has it *)
Theorem C114_owner_told kd ls rb env names has ops pre x y post i info q n :
  claiming_managed kd -> built kd (rb_world rb) (rb_mgr rb) -> none_abandoned ops -> knows kd (rb_world rb) has (rb_parts rb) ->
  comb_init env (Some names) = ((rb_parts rb, rb_mgr rb), true) ->
  sys_trace kd ls rb ops = pre ++ Of (EvDo x y) :: post ->
  In (i, info) (loaded (of_manager pre)) -> initialised (sys_trace kd ls rb ops) i q (ci_claims info) -> commands kd (rb_world rb) (rb_mgr rb) q n ->
  exists p T l l', In p (rb_parts rb) /\ tk_claiming (kd T) = true /\ provides (rb_world rb) (pt_mgr p) T n /\ In (OfPart (PDo (pt_id p) l l')) post /\
    (In info x -> reports l (ci_name info) T n) /\ (In info y -> reports l' (ci_name info) T n).
Proof.
  intros Hk Hb N K Hc E Hl Hi Hm.
  assert (Hv : In (EvLoaded i info) (of_manager (sys_trace kd ls rb ops))).
  { rewrite E, of_manager_app. apply in_or_app. left. apply loaded_event in Hl as [[]|Hl]. exact Hl. }
  destruct (owner_told kd ls rb Hk Hb has env names ops i info q n Hc K Hv Hi Hm) as (p & T & A1 & A2 & A3 & A4).
  destruct (told_do kd ls rb Hk Hb has ops pre x y post N K E) as [post' ->].
  exists p, T, (concerned (has p) x), (concerned (has p) y). repeat (split; [assumption|]). split; [|auto]. apply in_or_app. left. apply in_map_iff. exists p. auto.
Qed.
Print Assumptions C114_owner_told.
(** A part is told of no claim of something it does not have, and of none that was not made. *)
Theorem C114_only_own kd ls rb has ops c :
  claiming_managed kd -> built kd (rb_world rb) (rb_mgr rb) -> none_abandoned ops -> knows kd (rb_world rb) has (rb_parts rb) ->
  In (OfPart c) (sys_trace kd ls rb ops) ->
  exists p x y l l', In p (rb_parts rb) /\
    ((exists b, c = PPrepare (pt_id p) l l' b /\ exists ok, In (Of (EvPrepare x y ok)) (sys_trace kd ls rb ops)) \/
                                           c = PDo (pt_id p) l l' /\ In (Of (EvDo x y)) (sys_trace kd ls rb ops)) /\
    forall nm T n, (reports l nm T n <-> reports x nm T n /\ tk_rm (kd T) = true /\ provides (rb_world rb) (pt_mgr p) T n) /\
                   (reports l' nm T n <-> reports y nm T n /\ tk_rm (kd T) = true /\ provides (rb_world rb) (pt_mgr p) T n).
Proof. intros Hk Hb. exact (only_own kd ls rb Hk Hb has ops c). Qed.
Print Assumptions C114_only_own.
Example C114_example : comb_init env0 (Some ["arm"; "base"]) = ((rb_parts rob0, rb_mgr rob0), true) /\
  commands kd0 (rb_world rob0) (rb_mgr rob0) qA "c" /\ ~ provides (rb_world rob0) arm0 "pos" "c" /\
  exists pre post, sys_trace kd0 ld0 rob0 srun = pre ++ Of (EvDo [mkInfo "A" "T" [mkIface "pos" ["a"; "c"]]; mkInfo "B" "T" [mkIface "state" []; mkIface "pos" ["b"]]] []) :: post.
Proof.
  split; [vm_compute; reflexivity|]. split; [|split].
  - split; [reflexivity|]. split; [exists false; cbn; auto|]. exists 1%nat. split; [vm_compute; auto|vm_compute; discriminate].
  - intros (i & Hi & Hr). vm_compute in Hi. destruct Hi as [<-|[]]. apply Hr. vm_compute. reflexivity.
  - eexists (firstn 13 (sys_trace kd0 ld0 rob0 srun)), (skipn 14 (sys_trace kd0 ld0 rob0 srun)). vm_compute. reflexivity.
Qed.

(** * C115: when a controller loads *)
Theorem C115_load_iff kd ls rb ops n nh ty q :
  claiming_managed kd -> built kd (rb_world rb) (rb_mgr rb) -> sys_idle kd ls rb ops -> distinct_classes (sys_loaders ls ops) -> typed kd q ->
  (sys_reply kd ls rb ops (SLoad n nh ty q) = ABool true <->
   ~ known (of_manager (sys_trace kd ls rb ops)) n /\ nh = true /\ (exists t, ty = Some t /\ builds (sys_loaders ls ops) t) /\ usable kd (rb_world rb) (rb_mgr rb) q).
Proof. intros Hk Hb. exact (sys_load_iff kd ls rb Hk Hb ops n nh ty q). Qed.
Print Assumptions C115_load_iff.
Theorem C115_load_effect kd ls rb ops n nh ty q :
  claiming_managed kd -> built kd (rb_world rb) (rb_mgr rb) -> sys_idle kd ls rb ops -> sys_reply kd ls rb ops (SLoad n nh ty q) = ABool true ->
  let tr := sys_trace kd ls rb ops in let tr' := sys_trace kd ls rb (ops ++ [SLoad n nh ty q]) in
  exists i t cl, ty = Some t /\ loaded (of_manager tr') = loaded (of_manager tr) ++ [(i, mkInfo n t cl)] /\
    phase_of (of_manager tr) i = PAbsent /\ phase_of (of_manager tr') i = PLoaded /\ initialised tr' i q cl /\
    (forall r, (exists f, In f cl /\ In r (ir_res f)) <-> commands kd (rb_world rb) (rb_mgr rb) q r).
Proof. intros Hk Hb. exact (sys_load_effect kd ls rb Hk Hb ops n nh ty q). Qed.
Print Assumptions C115_load_effect.
Example C115_example :
  let bad := Single "pos" (mkBody [(None, "a", false); (None, "zz", false)] (Some true)) fin in
  let needs := Multi false ["state"; "eff"; "pos"] fin fin in
  typed kd0 bad /\ usable kd0 (rb_world rob0) (rb_mgr rob0) qB /\
  sys_reply kd0 ld0 rob0 shist (SLoad "D" true (Some "T") qA) = ABool true /\ sys_reply kd0 ld0 rob0 shist (SLoad "D" true (Some "T") bad) = ABool false /\
  sys_reply kd0 ld0 rob0 shist (SLoad "D" true (Some "T") needs) = ABool false /\
  sys_reply kd0 ld0 rob0 (shist ++ [SLoad "D" true (Some "T") bad]) (SLoad "D" true (Some "T") qC) = ABool true.
Proof.
  cbv zeta. split; [intros _; reflexivity|]. split.
  - split; [auto|]. split; [reflexivity|]. split; [reflexivity|]. cbn [b_calls app fin]. intros T n [[= <- <-]|[[= <- <-]|[]]] _ _.
    + exists 2%nat. split; [vm_compute; auto|vm_compute; discriminate].
    + exists 0%nat. split; [vm_compute; auto|vm_compute; discriminate].
  - vm_compute. auto 10.
Qed.

(** * C128: what the two listing services answer on a robot *)
Definition row_of kd rb (tr : list sysev) (c : nat * cinfo) (row : lc_entry) : Prop :=
  let mgr := of_manager tr in
  en_name row = ci_name (snd c) /\ en_type row = ci_type (snd c) /\
  (exists q, initialised tr (fst c) q (en_claims row) /\
     forall r, (exists f, In f (en_claims row) /\ In r (ir_res f)) <-> commands kd (rb_world rb) (rb_mgr rb) q r) /\
  (en_state row = "running" <-> runs mgr (fst c)) /\
  (en_state row = "initialized" <-> phase_of mgr (fst c) = PLoaded) /\ (en_state row = "stopped" <-> phase_of mgr (fst c) = PStopped) /\
  (en_state row = "waiting" <-> phase_of mgr (fst c) = PWaiting) /\ (en_state row = "aborted" <-> phase_of mgr (fst c) = PAborted).
Theorem C128_list_controllers kd ls rb ops :
  claiming_managed kd -> built kd (rb_world rb) (rb_mgr rb) -> sys_idle kd ls rb ops ->
  let tr := sys_trace kd ls rb ops in
  exists rows, sys_reply kd ls rb ops SListControllers = AList rows /\ Forall2 (row_of kd rb tr) (loaded (of_manager tr)) rows.
Proof.
  intros Hk Hb H tr. exists (report (of_manager tr)). split.
  - unfold tr. rewrite reply_proj, trace_proj. apply (list_reply ls). apply idle_proj. exact H.
  - unfold report. assert (G : forall c, In c (loaded (of_manager tr)) -> In c (loaded (of_manager tr))) by auto.
    revert G. generalize (loaded (of_manager tr)) at 1 3 4. intros l. induction l as [|[i info] l IH]; intros G; [constructor|].
    cbn [map]. constructor; [|apply IH; intros c Hc; apply G; right; exact Hc].
    assert (Hi : In (i, info) (loaded (of_manager tr))) by (apply G; left; reflexivity).
    destruct (loaded_request kd ls rb Hk Hb ops tr [] i info (eq_sym (app_nil_r _)) Hi) as (q & Hq & _).
    unfold row_of, runs. cbn [fst snd en_name en_type en_claims en_state]. do 2 (split; [reflexivity|]).
    split; [exists q; split; [exact Hq|intros r; exact (claims_commands kd ls rb Hk Hb ops i q _ r Hq)]|].
    destruct (phase_of (of_manager tr) i); cbn [phase_string]; repeat split; intros; try discriminate; reflexivity.
Qed.
Print Assumptions C128_list_controllers.
Theorem C128_list_types kd ls rb ops :
  sys_idle kd ls rb ops -> exists rows, sys_reply kd ls rb ops SListTypes = ATypes rows /\
  forall t base, In (t, base) rows <-> exists l, In l (sys_loaders ls ops) /\ ld_name l = base /\ In t (map fst (ld_classes l)).
Proof.
  intros H. exists (offered_types (sys_loaders ls ops)). split.
  - rewrite reply_proj. cbn [cm_op]. rewrite (types_reply ls); [|apply idle_proj; exact H].
    unfold sys_loaders, registered. rewrite loaders_proj. reflexivity.
  - intros t base. unfold offered_types. rewrite in_flat_map. split.
    + intros (l & Hl & Ht). apply in_map_iff in Ht as (c & [= <- <-] & Hc). exists l. split; [exact Hl|]. split; [reflexivity|]. apply in_map; exact Hc.
    + intros (l & Hl & <- & Ht). exists l. split; [exact Hl|]. apply in_map_iff in Ht as (c & <- & Hc). apply in_map_iff. exists c. auto.
Qed.
Print Assumptions C128_list_types.
Lemma listing_step kd s o : o = SListControllers \/ o = SListTypes -> fst (sys_step kd s o) = (s, []).
Proof.
  intros H. destruct s as [c r]. destruct H as [-> | ->]; unfold sys_step; cbn [cm_op sy_cm sy_rb]; unfold step; destruct (cm_call c); reflexivity.
Qed.
Theorem C128_change_nothing kd ls rb ops o rest : o = SListControllers \/ o = SListTypes ->
  sys_trace kd ls rb (ops ++ o :: rest) = sys_trace kd ls rb (ops ++ rest) /\
  forall o', sys_reply kd ls rb (ops ++ o :: rest) o' = sys_reply kd ls rb (ops ++ rest) o'.
Proof.
  intros H. assert (E : forall s, sys_run kd s (ops ++ o :: rest) = sys_run kd s (ops ++ rest)).
  { induction ops as [|a l IH]; intros s; cbn [app sys_run].
    - pose proof (listing_step kd s o H) as F. destruct (sys_step kd s o) as [[s1 e1] x]. injection F as -> ->. destruct (sys_run kd s rest); reflexivity.
    - destruct (sys_step kd s a) as [[s1 e1] x]. rewrite IH. reflexivity. }
  unfold sys_reply, sys_reach, sys_trace. rewrite E. auto.
Qed.
Print Assumptions C128_change_nothing.
Example C128_example : sys_idle kd0 ld0 rob0 srun /\
  sys_reply kd0 ld0 rob0 srun SListControllers =
    AList [mkEntry "A" "T" [mkIface "pos" ["a"; "c"]] "running"; mkEntry "B" "T" [mkIface "state" []; mkIface "pos" ["b"]] "running";
           mkEntry "C" "N" [mkIface "pos" ["b"]] "initialized"] /\
  sys_reply kd0 ld0 rob0 srun SListTypes = ATypes [("T", "base"); ("N", "base"); ("X", "base"); ("N", "other"); ("T", "other")].
Proof. vm_compute. auto. Qed.
