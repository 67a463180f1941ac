(** Property theorems about the transmission parser and the transmission loader. *)
From Coq Require Import QArith Permutation Lia.
From Verif Require Import LimExact SMapProofs TransSpec TransProofs TransHandle TransExact TransFrame LoadModel LoadSpec ParseProofs LoadProofs LoadMain LoadSep LoadVars LoadKept.
Local Open Scope string_scope.
Local Open Scope list_scope.
Local Open Scope nat_scope.

(** ** Things for the examples *)

(** Exact numbers that can be read from a few texts. *)
Definition texts_known : list (string * Q) := [("10", 10#1); ("20", 20#1); ("0", 0#1); ("-3", -3#1)].
Definition exactl : larith := mkLarith exactd (Some 1%Q) (fun s => match sfind s texts_known with Some q => Some (Some q) | None => None end).

Definition el (tag : string) (text : string) : node := Elem tag [] [Text text].
Definition joint_el (name : string) (kids : list node) : node := Elem "joint" [("name", name)] kids.
Definition act_el (name : string) (kids : list node) : node := Elem "actuator" [("name", name)] kids.
Definition trans_el (name type : string) (kids : list node) : node := Elem "transmission" [("name", name)] (el "type" type :: kids).
Definition robot_el (kids : list node) : node := Elem "robot" [("name", "r")] kids.

Definition pos_if := "hardware_interface/PositionJointInterface".
Definition state_if := "hardware_interface/JointStateInterface".

(** A differential with actuators listed in the order of their roles, and the other way round. *)
Definition a1_el := act_el "a1" [el "role" "actuator1"; el "mechanicalReduction" "10"].
Definition a2_el := act_el "a2" [el "role" "actuator2"; el "mechanicalReduction" "20"].
Definition j1_el := joint_el "j1" [el "role" "joint1"; el "hardwareInterface" pos_if].
Definition j2_el := joint_el "j2" [el "role" "joint2"; el "offset" "-3"; el "hardwareInterface" pos_if].
Definition diff_el := trans_el "diff" "transmission_interface/DifferentialTransmission" [a1_el; a2_el; j1_el; j2_el].
Definition diff_el' := trans_el "diff" "transmission_interface/DifferentialTransmission" [a2_el; j1_el; a1_el; j2_el].
(** Simple transmissions: a good one, one with reduction zero, one without role or interface. *)
Definition simple_el (name a j red : string) :=
  trans_el name "transmission_interface/SimpleTransmission"
    [Other; act_el a [el "mechanicalReduction" red]; joint_el j [el "hardwareInterface" state_if; el "hardwareInterface" pos_if]].
Definition good_el := simple_el "good" "a3" "j3" "20".
Definition bad_el := simple_el "bad" "a3" "j4" "0".

Definition infos_of (n : node) : list transmission_info := match parse (Root (robot_el [n])) [] with ParseReturns _ l => l | _ => [] end.
Definition info_of (n : node) : transmission_info := match infos_of n with i :: _ => i | [] => mkTInfo "" "" [] [] end.

(** A robot with three actuators with encoders and position commands. *)
Definition ex_acts : option (smap act_state) :=
  Some [("a1", mkActState 0 1 2 (Some 3) None); ("a2", mkActState 4 5 6 (Some 7) (Some 8)); ("a3", mkActState 9 10 11 None None)].
Definition ex_cmds : triple (option (smap addr)) := mkTriple (Some [("a1", 12); ("a2", 13); ("a3", 14)]) None None.
Definition l0 : loader exactl := new_loader exactl ex_acts ex_cmds 20.

Ltac nodup := repeat (constructor; [cbn; intuition discriminate|]); constructor.

(** Something about the handle with a name in an interface (to compute small things only). *)
Definition found {T} (K : hkind) (name : string) (l : loader exactl) (f : handle exactl -> T) : option T :=
  match s_get (iface exactl K l) with
  | Some m => match sfind name m with Some h => Some (f h) | None => None end
  | None => None
  end.
Lemma found_registered {T} K name l (f : handle exactl -> T) v : found K name l f = Some v -> exists h, registered exactl K name h l /\ f h = v.
Proof.
  unfold found. destruct (s_get _) as [m|] eqn:E; [|discriminate]. destruct (sfind name m) as [h|] eqn:F; [|discriminate].
  intros [= <-]. exists h. split; [exists m; auto | reflexivity].
Qed.
Lemma loads infos l o : snd (load_infos exactl infos l) = o -> load_infos exactl infos l = (fst (load_infos exactl infos l), o).
Proof. intros <-. apply surjective_pairing. Qed.
Lemma load1 i l o : snd (load_info exactl i l) = o -> load_info exactl i l = (fst (load_info exactl i l), o).
Proof. intros <-. apply surjective_pairing. Qed.

(** ** C70: the parser returns exactly the complete descriptions, in document order *)

Theorem C70_parse : forall doc before,
  match doc with
  | Malformed => parse doc before = ParseReturns false before
  | NoElement => True
  | Root root => exists ts, parse doc before = ParseReturns true (before ++ ts) /\
      selects describes_transmission (children "transmission" root) ts
  end.
Proof.
  intros [| |root] before; auto. destruct (transmissions_loop_spec (children "transmission" root) before) as (ts & E & S).
  exists ts. split; [|exact S]. cbn. now rewrite E.
Qed.
Print Assumptions C70_parse.

(** A description is determined by its element, so there is only one such list. *)
Theorem C70_descriptions_unique : forall l ts ts',
  selects describes_transmission l ts -> selects describes_transmission l ts' -> ts = ts'.
Proof. intros l ts ts'. apply selects_fun. exact describes_transmission_fun. Qed.
Print Assumptions C70_descriptions_unique.

(** What is returned can be handed to the loader: its assertions hold. *)
Theorem C70_complete : forall doc ok ts t, parse doc [] = ParseReturns ok ts -> In t ts -> complete t.
Proof.
  intros [| |root] ok ts t; cbn; try discriminate; [intros [= <- <-] []|].
  destruct (transmissions_loop_spec (children "transmission" root) []) as (ts' & E & S). rewrite E. cbn.
  intros [= <- <-] H. destruct (selects_in _ _ _ S t H) as (n & _ & D). eapply described_complete; eauto.
Qed.
Print Assumptions C70_complete.

(** Loading a robot description without any complete transmission fails, and changes nothing. *)
Theorem C70_nothing_found : forall A doc l, (forall ok ts, parse doc [] = ParseReturns ok ts -> ts = []) -> doc <> NoElement ->
  load_urdf A doc l = (l, Returned false).
Proof.
  intros A doc l H N. unfold load_urdf. destruct (parse doc []) as [ok ts|] eqn:E.
  - rewrite (H ok ts eq_refl). now destruct ok.
  - destruct doc; cbn in E; try discriminate. contradiction.
Qed.
Print Assumptions C70_nothing_found.

Example C70_parse_nonvacuous :
  (* a transmission without name, one without type, one with a joint without interfaces only,
     one with a nameless joint; a good one with a comment in it and one joint too few described *)
  exists t1 t2,
  parse (Root (robot_el [Elem "transmission" [] [el "type" "T"]; diff_el; Elem "transmission" [("name", "x")] [el "sort" "T"];
                         trans_el "y" "T" [a1_el; joint_el "j" [el "hardwareInterface" ""]; Elem "joint" [] []];
                         trans_el "z" "T" [a1_el; joint_el "j" [Elem "hardwareInterface" [] []]];
                         el "link" "?"; simple_el "s" "a" "j" "10"])) [] = ParseReturns true [t1; t2] /\
  ti_name t1 = "diff" /\ map ji_name (ti_joints t1) = ["j1"; "j2"] /\ map ji_role (ti_joints t1) = ["joint1"; "joint2"] /\
  ti_name t2 = "s" /\ map ji_ifaces (ti_joints t2) = [[state_if; pos_if]].
Proof. eexists; eexists. split; [vm_compute; reflexivity|]. repeat split. Qed.

(** The claim of failure for what is not a robot description is false: the name of the root
    element is not looked at, a document without transmissions is parsed successfully (both
    only matter to callers of the parser), and a document without root element is
    dereferenced as if it had one. *)
Theorem C70_any_root_refuted :
  (exists t, parse (Root (Elem "sdf" [] [good_el])) [] = ParseReturns true [t] /\ ti_name t = "good") /\
  parse (Root (Elem "robot" [] [])) [] = ParseReturns true [] /\
  parse NoElement [] = ParseUndefined.
Proof. split; [eexists; split; [vm_compute; reflexivity | reflexivity] | split; reflexivity]. Qed.
Print Assumptions C70_any_root_refuted.

(** ** C68: parameters are assigned by role *)

Theorem C68_order_irrelevant : forall A i i', reordered i i' -> load_transmission A i = load_transmission A i'.
Proof. exact load_transmission_perm. Qed.
Print Assumptions C68_order_irrelevant.

Theorem C68_by_role : forall A i t, load_transmission A i = Got t <-> as_described A i t.
Proof. intros A i t. symmetry. apply described_iff. Qed.
Print Assumptions C68_by_role.

Example C68_order_irrelevant_nonvacuous :
  reordered (info_of diff_el) (info_of diff_el') /\ ti_actuators (info_of diff_el) <> ti_actuators (info_of diff_el') /\
  load_transmission exactl (info_of diff_el') =
  Got (Differential exactl [Some (10#1); Some (20#1)] [Some 1; Some 1] [Some 0; Some (-3#1)] false)%Q.
Proof.
  split; [|split; [discriminate | vm_compute; reflexivity]].
  split; [reflexivity|]. split; [reflexivity|]. split; [vm_compute; reflexivity|].
  change (Permutation [mkAInfo "a1" [] a1_el; mkAInfo "a2" [] a2_el] [mkAInfo "a2" [] a2_el; mkAInfo "a1" [] a1_el]). constructor.
Qed.

(** But the variables are connected in the order of the description, so the order does matter to
    the robot: the position of a joint, as the robot's joint state interface shows it after
    propagation. *)
Definition joint_after (i : transmission_info) (joint : string) (m : mem exactl) : option (option Q) :=
  match load_info exactl i l0 with
  | (l, Returned true) =>
      match s_get (l_a2j_state exactl l), s_get (l_jnt_state exactl l) with
      | Some handles, Some joints =>
          match propagate_all exactl ActToJntState handles m, sfind joint joints with
          | Ok m', Some x => Some (m' (js_pos x))
          | _, _ => None
          end
      | _, _ => None
      end
  | _ => None
  end.
Theorem C68_order_matters_refuted : exists i i' m v v', reordered i i' /\
  joint_after i "j1" m = Some (Some v) /\ joint_after i' "j1" m = Some (Some v') /\ ~ (v == v')%Q.
Proof.
  exists (info_of diff_el), (info_of diff_el'), (fun a => if (a =? 0)%nat then Some (100#1)%Q else Some 0%Q).
  assert (E : match joint_after (info_of diff_el) "j1" (fun a => if (a =? 0)%nat then Some (100#1)%Q else Some 0%Q),
                    joint_after (info_of diff_el') "j1" (fun a => if (a =? 0)%nat then Some (100#1)%Q else Some 0%Q) with
              | Some (Some v), Some (Some v') => Qeq_bool v (5#1) && Qeq_bool v' (5#2) | _, _ => false end = true)
    by (vm_compute; reflexivity).
  destruct (joint_after (info_of diff_el) "j1" _) as [[v|]|]; try discriminate E.
  destruct (joint_after (info_of diff_el') "j1" _) as [[v'|]|]; try discriminate E.
  exists v, v'. split; [exact (proj1 C68_order_irrelevant_nonvacuous)|]. split; [reflexivity|]. split; [reflexivity|].
  apply andb_prop in E. destruct E as [E1 E2]. apply Qeq_bool_eq in E1, E2. rewrite E1, E2. discriminate.
Qed.
Print Assumptions C68_order_matters_refuted.

(** ** C69: loading a list loads a prefix *)

Theorem C69_prefix : forall A infos l l' o, load_infos A infos l = (l', o) ->
  (o = Returned true /\ l' = after A infos l) \/
  exists pre i post, infos = pre ++ i :: post /\ load_infos A pre l = (after A pre l, Returned true) /\
    load_info A i (after A pre l) = (l', o) /\ o <> Returned true.
Proof. exact load_infos_prefix. Qed.
Print Assumptions C69_prefix.

(** For a robot without interfaces of its own, whatever was loaded before: if loading fails,
    exactly the transmissions before the first failing one have been loaded, and nothing else
    has happened. *)
Theorem C69_failed_load : forall A acts cmds next earlier infos l' o,
  let l := after A earlier (new_loader A acts cmds next) in
  load_infos A infos l = (l', o) -> o <> Returned true ->
  exists pre i post, infos = pre ++ i :: post /\ l' = after A pre l /\
    load_infos A pre l = (l', Returned true) /\ snd (load_info A i l') = o.
Proof.
  intros A acts cmds next earlier infos l' o l E N.
  destruct (load_infos_prefix A infos l l' o E) as [(-> & _)|(pre & i & post & -> & H1 & H2 & _)]; [congruence|].
  destruct (after_inv A earlier _ (new_loader_inv A acts cmds next)) as (I & _). destruct (after_inv A pre _ I) as (I' & _). fold l in I'.
  destruct (load_info_spec A i _ I') as (l1 & o1 & ks & E1 & _ & _ & U & _). rewrite H2 in E1. injection E1 as <- <-.
  destruct (U N) as (-> & _). exists pre, i, post. rewrite H2. auto.
Qed.
Print Assumptions C69_failed_load.

(** So it is not all or nothing: a transmission stays registered although loading the list failed. *)
Theorem C69_all_or_nothing_refuted : exists infos l' h,
  load_infos exactl infos l0 = (l', Returned false) /\ registered exactl ActToJntState "good" h l' /\
  forall K n g, ~ registered exactl K n g l0.
Proof.
  set (infos := [info_of good_el; info_of bad_el]). set (l' := fst (load_infos exactl infos l0)).
  destruct (found_registered ActToJntState "good" l' (fun _ => tt) tt) as (h & R & _); [vm_compute; reflexivity|].
  exists infos, l', h. split; [apply loads; vm_compute; reflexivity|]. split; [exact R|].
  intros K n g (m & E & _). destruct K; discriminate E.
Qed.
Print Assumptions C69_all_or_nothing_refuted.

(** ** C85: a transmission that cannot be loaded leaves no trace *)

(** Robot without joint interfaces and transmission interfaces of its own, whatever was loaded
    before.  Loading succeeds exactly if the parameters are valid, all joints have the same hardware
    interfaces, and one of these is known and the robot has all actuators for it.  Otherwise nothing
    changes.  No exception leaves [load].  Behaviour is undefined only if a number element is
    without text. *)
Theorem C85_load : forall A acts cmds next earlier i l' o,
  let l := after A earlier (new_loader A acts cmds next) in
  load_info A i l = (l', o) ->
  (o <> Returned true -> l' = l) /\ o <> Threw /\ (complete i -> o <> AssertFailed) /\ (o = Undefined -> textless i) /\
  (o = Returned true <->
    (exists t, as_described A i t) /\ (forall j, In j (ti_joints i) -> Permutation (interfaces i) (ji_ifaces j)) /\
    exists hw, In hw (interfaces i) /\ served A i l hw).
Proof.
  intros A acts cmds next earlier i l' o l E.
  destruct (after_inv A earlier _ (new_loader_inv A acts cmds next)) as (I & _). fold l in I.
  destruct (load_info_spec A i l I) as (l1 & o1 & ks & E1 & _ & NT & U & NA & _). rewrite E in E1. injection E1 as <- <-.
  split; [intros N; now apply U|]. split; [exact NT|]. split; [exact NA|]. split.
  - intros ->. apply (undefined_textless A). eapply load_info_undef; [exact I|]. rewrite E. reflexivity.
  - pose proof (load_info_loadable A i l I) as L. rewrite E in L. exact L.
Qed.
Print Assumptions C85_load.

Example C85_load_nonvacuous :
  snd (load_info exactl (info_of diff_el) l0) = Returned true /\
  snd (load_info exactl (info_of bad_el) (after exactl [info_of diff_el] l0)) = Returned false /\
  complete (info_of diff_el) /\ complete (info_of bad_el).
Proof.
  split; [vm_compute; reflexivity|]. split; [vm_compute; reflexivity|].
  split; (split; [discriminate|]); cbn; intros j H; repeat (destruct H as [<-|H]; [discriminate|]); destruct H.
Qed.

(** Is the robot's own joint state interface in use, loading a transmission for a command
    interface throws an exception, and the joints have been added to that interface. *)
Definition l_own : loader exactl := set_jnt_state exactl (mkSlot (Some []) [] false) l0.
Theorem C85_own_interface_refuted :
  exists l' m, load_info exactl (info_of diff_el) l_own = (l', Threw) /\
    s_get (l_jnt_state exactl l_own) = Some [] /\ s_get (l_jnt_state exactl l') = Some m /\ sfind "j1" m <> None.
Proof.
  set (l' := fst (load_info exactl (info_of diff_el) l_own)).
  assert (E : match s_get (l_jnt_state exactl l') with Some m => match sfind "j1" m with Some _ => true | None => false end | None => false end = true)
    by (vm_compute; reflexivity).
  destruct (s_get (l_jnt_state exactl l')) as [m|] eqn:E1; [|discriminate E]. exists l', m.
  split; [apply load1; vm_compute; reflexivity|]. split; [reflexivity|]. split; [exact E1|]. intros E2. now rewrite E2 in E.
Qed.
Print Assumptions C85_own_interface_refuted.

(** An empty number element. *)
Theorem C85_textless_refuted : exists i, complete i /\ textless i /\ snd (load_info exactl i l0) = Undefined.
Proof.
  exists (info_of (trans_el "t" "transmission_interface/SimpleTransmission"
    [act_el "a1" [Elem "mechanicalReduction" [] []]; joint_el "j" [el "hardwareInterface" pos_if]])).
  split; [split; [discriminate|]; cbn; intros j [<-|[]]; discriminate|].
  split; [|vm_compute; reflexivity].
  do 3 eexists. split; [left; reflexivity|]. split; [left; reflexivity|]. split; reflexivity.
Qed.
Print Assumptions C85_textless_refuted.

(** ** C86: what has been loaded can be propagated *)

Theorem C86_propagate : forall (A : larith) acts cmds next infos K handles m,
  doubling A -> s_get (iface A K (after A infos (new_loader A acts cmds next))) = Some handles ->
  (forall h, In h (map snd handles) -> no_underflow A (h_trans A h)) ->
  exists m', propagate_all A K handles m = Ok m'.
Proof.
  intros A acts cmds next infos K handles m HD G NU. set (l := after A infos _) in *.
  destruct (after_inv A infos _ (new_loader_inv A acts cmds next)) as (I & _). fold l in I.
  pose proof (after_sourced A infos [] _ (new_loader_inv A acts cmds next) (new_sourced A acts cmds next)) as S. fold l in S.
  pose proof (after_sorted A infos _ (new_loader_inv A acts cmds next) (new_sorted A acts cmds next) K) as SO. fold l in SO.
  rewrite bare_get in G by apply I. destruct (s_on _); [|discriminate]. injection G as <-.
  rewrite propagate_all_seq. apply run_seq_total. intros h m1 Hh.
  apply in_map_iff in Hh. destruct Hh as ((n & h') & E & Hh). cbn in E. subst h'.
  destruct (S K n h) as (i & _ & _ & C); [now apply sfind_in|].
  destruct (connects_made A K i l h C) as (HM & HN & HC).
  eapply propagate_total; eauto; [now apply constructed_params|]. apply NU. apply in_map_iff. now exists (n, h).
Qed.
Print Assumptions C86_propagate.

(** For rationals without a condition on the reductions, for doubles that no product of a four-bar
    linkage's reductions is rounded to zero (see C65). *)
Theorem C86_propagate_exact : forall one stod acts cmds next infos K handles m,
  let A := mkLarith exactd one stod in
  s_get (iface A K (after A infos (new_loader A acts cmds next))) = Some handles ->
  exists m', propagate_all A K handles m = Ok m'.
Proof.
  intros one stod acts cmds next infos K handles m A G. apply (C86_propagate A acts cmds next infos); [exact exact_doubling | exact G|].
  intros h Hh. apply exact_no_underflow. set (l := after A infos _) in *.
  destruct (after_inv A infos _ (new_loader_inv A acts cmds next)) as (I & _). fold l in I.
  pose proof (after_sorted A infos _ (new_loader_inv A acts cmds next) (new_sorted A acts cmds next) K) as SO. fold l in SO.
  rewrite bare_get in G by apply I. destruct (s_on _); [|discriminate]. injection G as <-.
  apply in_map_iff in Hh. destruct Hh as ((n & h') & E & Hh). cbn in E. subst h'.
  destruct (after_sourced A infos [] _ (new_loader_inv A acts cmds next) (new_sourced A acts cmds next) K n h) as (i & _ & _ & C); [now apply sfind_in|].
  destruct (connects_made A K i _ h C) as (_ & _ & HC). now apply constructed_params.
Qed.
Print Assumptions C86_propagate_exact.

(** Moreover, if every joint (for interfaces that write joint variables) or every actuator (for those that
    write actuator variables) belongs to one transmission, and the robot's actuators have variables of their
    own, no transmission overwrites what another one reads or writes: each computes the same as if it was
    propagated alone. *)
Theorem C86_separate : forall (A : larith) acts cmds next infos K handles m,
  doubling A -> s_get (iface A K (after A infos (new_loader A acts cmds next))) = Some handles ->
  (forall h, In h (map snd handles) -> no_underflow A (h_trans A h)) ->
  below acts cmds next -> own_variables acts cmds ->
  unshared (fun i => if toward_joints K then map ji_name (ti_joints i) else map ai_name (ti_actuators i)) infos ->
  all_separate A K (map snd handles) /\
  exists m', propagate_all A K handles m = Ok m' /\
    unchanged_outside A (flat_map (targets A K) (map snd handles)) m m' /\
    forall h m1, In h (map snd handles) -> propagate A K h m = Ok m1 -> map m' (targets A K h) = map m1 (targets A K h).
Proof.
  intros A acts cmds next infos K handles m HD G NU B O U. set (l := after A infos _) in *.
  destruct (after_inv A infos _ (new_loader_inv A acts cmds next)) as (I & X). fold l in I, X.
  pose proof (after_sourced A infos [] _ (new_loader_inv A acts cmds next) (new_sourced A acts cmds next)) as S. fold l in S.
  pose proof (after_sorted A infos _ (new_loader_inv A acts cmds next) (new_sorted A acts cmds next)) as SO. fold l in SO.
  rewrite bare_get in G by apply I. destruct (s_on _); [|discriminate]. injection G as <-.
  assert (SEP : all_separate A K (map snd (s_mine (iface A K l)))).
  { eapply (loaded_separate A K infos l next); auto.
    - rewrite (ext_as _ _ _ X), (ext_ac _ _ _ X). exact B.
    - rewrite (ext_as _ _ _ X), (ext_ac _ _ _ X). exact O.
    - intros n r E. destruct (ext_new _ _ _ X n r E) as [H|H]; [discriminate | exact H]. }
  split; [exact SEP|]. apply interface_writer; auto.
  intros h Hh. apply in_map_iff in Hh. destruct Hh as ((n & h') & E & Hh). cbn in E. subst h'.
  destruct (S K n h) as (i & _ & _ & C); [now apply sfind_in|].
  destruct (connects_made A K i l h C) as (HM & HN & HC).
  split; [now apply constructed_params|]. split; [apply NU; apply in_map_iff; now exists (n, h)|]. split; [|exact HN]. eauto.
Qed.
Print Assumptions C86_separate.

Example C86_separate_nonvacuous :
  (exists handles, s_get (iface exactl ActToJntState (after exactl [info_of good_el; info_of diff_el] l0)) = Some handles /\ map fst handles = ["diff"; "good"]) /\
  (exists handles, s_get (iface exactl JntToActPosition (after exactl [info_of good_el; info_of diff_el] l0)) = Some handles /\ map fst handles = ["diff"; "good"]) /\
  below ex_acts ex_cmds 20 /\ own_variables ex_acts ex_cmds /\
  unshared (fun i => map ji_name (ti_joints i)) [info_of good_el; info_of diff_el] /\
  unshared (fun i => map ai_name (ti_actuators i)) [info_of good_el; info_of diff_el].
Proof.
  assert (NM : forall K, match s_get (iface exactl K (after exactl [info_of good_el; info_of diff_el] l0)) with
    | Some handles => Some (map fst handles) | None => None end = Some ["diff"; "good"] ->
    exists handles, s_get (iface exactl K (after exactl [info_of good_el; info_of diff_el] l0)) = Some handles /\ map fst handles = ["diff"; "good"]).
  { intros K. destruct (s_get _) as [hs|]; [|discriminate]. intros [= E]. now exists hs. }
  split; [apply NM; vm_compute; reflexivity|]. split; [apply NM; vm_compute; reflexivity|]. clear NM.
  assert (AC : forall (n : string) x, sfind n [("a1", mkActState 0 1 2 (Some 3) None); ("a2", mkActState 4 5 6 (Some 7) (Some 8)); ("a3", mkActState 9 10 11 None None)] = Some x ->
    (n = "a1" /\ x = mkActState 0 1 2 (Some 3) None) \/ (n = "a2" /\ x = mkActState 4 5 6 (Some 7) (Some 8)) \/ (n = "a3" /\ x = mkActState 9 10 11 None None)).
  { intros n x. cbn. destruct (String.eqb_spec n "a1"); [intros [= <-]; auto|]. destruct (String.eqb_spec n "a2"); [intros [= <-]; auto|].
    destruct (String.eqb_spec n "a3"); [intros [= <-]; auto|]. discriminate. }
  assert (CC : forall (n : string) x, sfind n [("a1", 12); ("a2", 13); ("a3", 14)] = Some x -> (n = "a1" /\ x = 12) \/ (n = "a2" /\ x = 13) \/ (n = "a3" /\ x = 14)).
  { intros n x. cbn. destruct (String.eqb_spec n "a1"); [intros [= <-]; auto|]. destruct (String.eqb_spec n "a2"); [intros [= <-]; auto|].
    destruct (String.eqb_spec n "a3"); [intros [= <-]; auto|]. discriminate. }
  split; [split|split; [split; [|split]|split]].
  - intros m n x a [= <-] F. apply AC in F. destruct F as [(_ & ->)|[(_ & ->)|(_ & ->)]]; cbn; intuition lia.
  - intros k m n a E F. destruct k; try discriminate E. injection E as <-. apply CC in F. intuition lia.
  - intros m n x [= <-] F. apply AC in F. destruct F as [(_ & ->)|[(_ & ->)|(_ & ->)]]; cbn; nodup.
  - intros m n n' x x' a [= <-] N F F'. apply AC in F. apply AC in F'.
    destruct F as [(-> & ->)|[(-> & ->)|(-> & ->)]], F' as [(-> & ->)|[(-> & ->)|(-> & ->)]]; cbn; intuition (try congruence; lia).
  - intros k m n n' a a' E N F F'. destruct k; try discriminate E. injection E as <-. apply CC in F. apply CC in F'.
    destruct F as [(-> & ->)|[(-> & ->)|(-> & ->)]], F' as [(-> & ->)|[(-> & ->)|(-> & ->)]]; congruence.
  - split; [intros i [<-|[<-|[]]]; cbn; nodup|].
    intros i i' n [<-|[<-|[]]] [<-|[<-|[]]] N; cbn in *; try congruence; intuition congruence.
  - split; [intros i [<-|[<-|[]]]; cbn; nodup|].
    intros i i' n [<-|[<-|[]]] [<-|[<-|[]]] N; cbn in *; try congruence; intuition congruence.
Qed.

(** The flags in the loader's raw joint data are open to the user.  If one says that a joint has no
    absolute position while its actuator has one, loading still succeeds, but propagating the states
    fails an assertion. *)
Definition l_flag : loader exactl := set_raw exactl [("j1", mkRaw 20 false true)] 28 l0.
Theorem C86_flags_refuted : exists l' handles m,
  load_info exactl (info_of (simple_el "s" "a1" "j1" "10")) l_flag = (l', Returned true) /\
  s_get (iface exactl ActToJntState l') = Some handles /\ propagate_all exactl ActToJntState handles m = Assertion.
Proof.
  set (i := info_of (simple_el "s" "a1" "j1" "10")). set (l' := fst (load_info exactl i l_flag)).
  assert (E : match s_get (iface exactl ActToJntState l') with
              | Some hs => match propagate_all exactl ActToJntState hs (fun _ => Some 0%Q) with Assertion => true | _ => false end
              | None => false end = true) by (vm_compute; reflexivity).
  destruct (s_get (iface exactl ActToJntState l')) as [hs|] eqn:E1; [|discriminate E].
  exists l', hs, (fun _ => Some 0%Q). split; [apply load1; vm_compute; reflexivity|]. split; [exact E1|].
  destruct (propagate_all _ _ _ _); now try discriminate E.
Qed.
Print Assumptions C86_flags_refuted.

(** ** C87: loaded transmissions connect the described actuators and joints of the robot *)

(** Every handle there is does what a loaded description with its name says. *)
Theorem C87_only_described : forall A acts cmds next infos K name h,
  let l := after A infos (new_loader A acts cmds next) in
  registered A K name h l -> exists i, In i infos /\ ti_name i = name /\ connects A K i l h.
Proof.
  intros A acts cmds next infos K name h l R.
  destruct (after_inv A infos _ (new_loader_inv A acts cmds next)) as (I & _). fold l in I.
  apply registered_mine in R; [|exact I].
  exact (after_sourced A infos [] _ (new_loader_inv A acts cmds next) (new_sourced A acts cmds next) K name h R).
Qed.
Print Assumptions C87_only_described.

(** Transmissions with different names, loaded successfully: under the name of each there are
    handles in exactly the transmission interfaces its hardware interfaces ask for, as far as
    the robot has the actuators; they do what that description says. *)
Theorem C87_all_described : forall A acts cmds next infos l',
  let l := new_loader A acts cmds next in
  NoDup (map ti_name infos) -> load_infos A infos l = (l', Returned true) ->
  forall i K, In i infos ->
    (exists hw, In hw (interfaces i) /\ served A i l hw) /\
    ((exists hw, In hw (interfaces i) /\ served A i l hw /\ In K (asks hw)) <-> exists h, registered A K (ti_name i) h l') /\
    forall h, registered A K (ti_name i) h l' -> connects A K i l' h.
Proof.
  intros A acts cmds next infos l' l ND E i K Hi.
  destruct (load_infos_ok A infos l [] (new_loader_inv A acts cmds next)) with (l' := l') as (I' & _ & _ & AL & CO); auto.
  { intros K' n h H. destruct K'; discriminate. }
  destruct (AL i Hi) as (_ & HW & HK). split; [exact HW|]. split.
  - rewrite HK. split; intros (h & Hh); exists h; apply (registered_mine A K _ h l' I'); auto.
  - intros h Hh. apply registered_mine in Hh; eauto.
Qed.
Print Assumptions C87_all_described.

Example C87_all_described_nonvacuous : exists l',
  NoDup (map ti_name [info_of good_el; info_of diff_el]) /\
  load_infos exactl [info_of good_el; info_of diff_el] l0 = (l', Returned true) /\
  (exists h, registered exactl JntToActPosition "diff" h l' /\
     h_act exactl h = mkData [Some 12; Some 13] [] [] [] [] /\ h_jnt exactl h = mkData [Some 31; Some 39] [] [] [] []) /\
  forall h, ~ registered exactl JntToActVelocity "diff" h l'.
Proof.
  set (infos := [info_of good_el; info_of diff_el]). set (l' := fst (load_infos exactl infos l0)).
  exists l'. split; [cbn; nodup|]. split; [apply loads; vm_compute; reflexivity|]. split.
  - destruct (found_registered JntToActPosition "diff" l' (fun h => (h_act exactl h, h_jnt exactl h)) (mkData [Some 12; Some 13] [] [] [] [], mkData [Some 31; Some 39] [] [] [] []))
      as (h & R & E); [vm_compute; reflexivity|]. injection E as E1 E2. exists h. auto.
  - intros h (m & E & _). assert (E' : match s_get (iface exactl JntToActVelocity l') with Some _ => true | None => false end = false) by (vm_compute; reflexivity).
    rewrite E in E'. discriminate.
Qed.

(** With the same name twice, the state handle is the first one's and the command handle the second
    one's: the joint of the second has no state. *)
Theorem C87_same_name_refuted : exists infos l' h h' i,
  load_infos exactl infos l0 = (l', Returned true) /\ In i infos /\ ti_name i = "t" /\
  registered exactl ActToJntState "t" h l' /\ ~ connects exactl ActToJntState i l' h /\
  registered exactl JntToActPosition "t" h' l' /\ d_position (h_act exactl h) = [Some 0] /\ d_position (h_act exactl h') = [Some 14].
Proof.
  set (t1 := info_of (trans_el "t" "transmission_interface/SimpleTransmission" [act_el "a1" [el "mechanicalReduction" "10"]; joint_el "j1" [el "hardwareInterface" pos_if]])).
  set (t2 := info_of (trans_el "t" "transmission_interface/SimpleTransmission" [act_el "a3" [el "mechanicalReduction" "20"]; joint_el "j3" [el "hardwareInterface" pos_if]])).
  set (infos := [t1; t2]). set (l' := fst (load_infos exactl infos l0)).
  destruct (found_registered ActToJntState "t" l' (fun h => (d_position (h_act exactl h), match h_trans exactl h with Simple _ r _ => Some r | _ => None end)) ([Some 0], Some (Some (10#1)%Q))) as (h & R & E); [vm_compute; reflexivity|].
  injection E as E0 E.
  destruct (found_registered JntToActPosition "t" l' (fun h => d_position (h_act exactl h)) [Some 14]) as (h' & R' & E'); [vm_compute; reflexivity|].
  exists infos, l', h, h', t2. split; [apply loads; vm_compute; reflexivity|]. split; [right; now left|]. split; [reflexivity|].
  split; [exact R|]. split; [|auto]. 
  intros (_ & E1 & _). apply described_iff in E1. change exactl.(larith_d) with exactd in E1. destruct (h_trans exactd h) as [r o| |]; try discriminate E. assert (Er : r = Some (10#1)%Q) by congruence. rewrite Er in E1. vm_compute in E1. discriminate E1.
Qed.
Print Assumptions C87_same_name_refuted.

(** ** C107: the joints of a loaded robot and their variables *)

(** The robot's joint interfaces contain exactly the joints of the transmissions that could be
    loaded, and a command interface those whose transmission asks for that command. *)
Theorem C107_joints : forall A acts cmds next infos n,
  let l0 := new_loader A acts cmds next in let l := after A infos l0 in
  ((exists m x, s_get (l_jnt_state A l) = Some m /\ sfind n m = Some x) <->
   exists i, In i infos /\ loadable A i l0 /\ In n (map ji_name (ti_joints i))) /\
  forall k,
  ((exists m x, s_get (tget k (l_jnt_cmd A l)) = Some m /\ sfind n m = Some x) <->
   exists i hw K, In i infos /\ loadable A i l0 /\ In n (map ji_name (ti_joints i)) /\
     In hw (interfaces i) /\ served A i l0 hw /\ In K (asks hw) /\ commands K = Some k).
Proof.
  intros A acts cmds next infos n l0 l. pose proof (new_loader_inv A acts cmds next) as I0. fold l0 in I0.
  destruct (after_inv A infos l0 I0) as (I & _). fold l in I. destruct (after_joints A infos l0 I0) as (S & C).
  split; [|intros k].
  - rewrite (state_shown A l n I). unfold l. rewrite S. split; [intros [(r & H)|H]; [discriminate | exact H] | auto].
  - rewrite (command_shown A k l n I). unfold l. rewrite C. split; [intros [(r & H)|H]; [destruct k; discriminate | exact H] | auto].
Qed.
Print Assumptions C107_joints.

(** Every joint has variables of its own, one for each purpose: no variable is shown under two names
    or for two purposes, and none of them is one of the robot's.  A command handle shows the
    joint's state in the same variables as the state interface. *)
Theorem C107_own_variables : forall A acts cmds next infos,
  let l := after A infos (new_loader A acts cmds next) in
  (forall n p a, shows A l n p a -> next <= a) /\
  (forall n p a n' p' a', shows A l n p a -> shows A l n' p' a' -> (a = a' <-> n = n' /\ p = p')) /\
  (forall k m n x, s_get (tget k (l_jnt_cmd A l)) = Some m -> sfind n m = Some x ->
     exists m', s_get (l_jnt_state A l) = Some m' /\ sfind n m' = Some (jc_state x)).
Proof.
  intros A acts cmds next infos l. destruct (after_inv A infos _ (new_loader_inv A acts cmds next)) as (I & X). fold l in I, X.
  split; [|split].
  - intros n p a H. destruct (shows_at A l n p a I H) as (r & R & ->). destruct (ext_new _ _ _ X n r R) as [Z|Z]; [discriminate|]. cbn in Z. lia.
  - intros n p a n' p' a'. apply (shows_inj A l n p a n' p' a' I).
  - intros k m n x G F. rewrite bare_get in G by apply I. destruct (s_on (tget k (l_jnt_cmd A l))); [|discriminate]. injection G as <-.
    destruct (inv_cmd _ _ I k n x F) as (r & R & ->).
    assert (F' : sfind n (s_mine (l_jnt_state A l)) = Some (state_handle r)) by (rewrite (inv_state _ _ I), R; reflexivity).
    eexists. split; [exact (bare_find _ _ _ (inv_js _ _ I) F') | exact F'].
Qed.
Print Assumptions C107_own_variables.

(** Propagation through one interface changes nothing else: from actuators to joints, only variables of
    the joints of loaded transmissions, and only those of the interface's purpose; from joints to actuators, no
    variable of a joint. *)
Theorem C107_effects : forall A acts cmds next infos K handles m m',
  let l := after A infos (new_loader A acts cmds next) in
  below acts cmds next ->
  s_get (iface A K l) = Some handles -> propagate_all A K handles m = Ok m' ->
  (toward_joints K = true -> forall a, m' a <> m a ->
     exists i n p, In i infos /\ In n (map ji_name (ti_joints i)) /\ deals_with K p /\ shows A l n p a) /\
  (toward_joints K = false -> forall a, m' a <> m a -> a < next).
Proof.
  intros A acts cmds next infos K handles m m' l B G E.
  destruct (after_inv A infos _ (new_loader_inv A acts cmds next)) as (I & X). fold l in I, X.
  pose proof (after_sourced A infos [] _ (new_loader_inv A acts cmds next) (new_sourced A acts cmds next)) as S. fold l in S.
  pose proof (after_sorted A infos _ (new_loader_inv A acts cmds next) (new_sorted A acts cmds next) K) as SO. fold l in SO.
  rewrite bare_get in G by apply I. destruct (s_on (iface A K l)); [|discriminate]. injection G as <-.
  pose proof (propagate_all_only A K _ m m' E) as U.
  assert (T : forall a, m' a <> m a -> exists i h, In i infos /\ connects A K i l h /\ In a (targets A K h)).
  { intros a N. destruct (in_dec Nat.eq_dec a (flat_map (targets A K) (map snd (s_mine (iface A K l))))) as [H|H]; [|now destruct N; apply U].
    apply in_flat_map in H. destruct H as (h & Hh & Ha). apply in_map_iff in Hh. destruct Hh as ((n & h') & Eh & Hh). cbn in Eh. subst h'.
    destruct (S K n h) as (i & Hi & _ & C); [now apply sfind_in|]. exists i, h. auto. }
  split.
  - intros TJ a N. destruct (T a N) as (i & h & Hi & C & Ha). destruct (targets_shown A K i l h a I C TJ Ha) as (n & p & H1 & H2 & H3).
    exists i, n, p. auto.
  - intros TJ a N. destruct (T a N) as (i & h & Hi & C & Ha).
    destruct (sides_apart A K i l h next I) as (SA & _); auto.
    + rewrite (ext_as _ _ _ X), (ext_ac _ _ _ X). exact B.
    + intros n r R. destruct (ext_new _ _ _ X n r R) as [Z|Z]; [discriminate | exact Z].
    + unfold targets, target_data in Ha. rewrite TJ in Ha. apply in_flat_map in Ha. destruct Ha as (q & _ & Ha). exact (SA q a Ha).
Qed.
Print Assumptions C107_effects.

(** Which variable is shown (to compute small things only). *)
Lemma shown_state_by (l : loader exactl) n q a :
  match s_get (l_jnt_state exactl l) with
  | Some m => match sfind n m with
              | Some x => match q with Position => Some (js_pos x) | Velocity => Some (js_vel x) | Effort => Some (js_eff x) | AbsolutePosition => js_abs x | TorqueSensor => js_tor x end
              | None => None end
  | None => None end = Some a -> shows exactl l n (StateOf q) a.
Proof.
  cbn [shows]. destruct (s_get (l_jnt_state exactl l)) as [m|]; [|intros Z; discriminate Z]. destruct (sfind n m) as [x|] eqn:F; [|intros Z; discriminate Z].
  intros E. exists m, x. split; [reflexivity|]. split; [exact F|]. destruct q; congruence.
Qed.
Lemma shown_command_by (l : loader exactl) n k a :
  match s_get (tget k (l_jnt_cmd exactl l)) with
  | Some m => match sfind n m with Some x => Some (jc_cmd x) | None => None end
  | None => None end = Some a -> shows exactl l n (CommandOf k) a.
Proof.
  cbn [shows]. destruct (s_get (tget k (l_jnt_cmd exactl l))) as [m|]; [|intros Z; discriminate Z]. destruct (sfind n m) as [x|] eqn:F; [|intros Z; discriminate Z].
  intros E. exists m, x. split; [reflexivity|]. split; [exact F|]. congruence.
Qed.
Example C107_nonvacuous :
  let l := after exactl [info_of bad_el; info_of good_el; info_of diff_el] l0 in
  (exists a b c, shows exactl l "j1" (StateOf Position) a /\ shows exactl l "j2" (CommandOf Pos) b /\ shows exactl l "j3" (StateOf TorqueSensor) c /\
     NoDup [a; b; c]) /\
  (forall a, ~ shows exactl l "j4" (StateOf Position) a) /\ (forall n a, ~ shows exactl l n (CommandOf Vel) a) /\
  exists handles m', s_get (iface exactl ActToJntState l) = Some handles /\
    propagate_all exactl ActToJntState handles (fun a => Some (Z.of_nat a # 1)%Q) = Ok m' /\ m' 20 <> Some (20 # 1)%Q.
Proof.
  intros l. split; [|split; [|split]].
  - exists 28, 39, 27. split; [|split; [|split]].
    + apply shown_state_by. vm_compute. reflexivity.
    + apply shown_command_by. vm_compute. reflexivity.
    + apply shown_state_by. vm_compute. reflexivity.
    + repeat constructor; cbn; lia.
  - intros a (m & x & G & F & _). assert (E : match s_get (l_jnt_state exactl l) with Some m => match sfind "j4" m with Some _ => true | None => false end | None => false end = false) by (vm_compute; reflexivity).
    rewrite G, F in E. discriminate E.
  - intros n a (m & x & G & _). assert (E : match s_get (t_vel (l_jnt_cmd exactl l)) with Some _ => true | None => false end = false) by (vm_compute; reflexivity).
    change (tget Vel (l_jnt_cmd exactl l)) with (t_vel (l_jnt_cmd exactl l)) in G. rewrite G in E. discriminate E.
  - assert (E : match s_get (iface exactl ActToJntState l) with
                | Some hs => match propagate_all exactl ActToJntState hs (fun a => Some (Z.of_nat a # 1)%Q) with
                             | Ok m' => match m' 20 with Some v => negb (Qeq_bool v (20 # 1)) | None => true end | _ => false end
                | None => false end = true) by (vm_compute; reflexivity).
    destruct (s_get (iface exactl ActToJntState l)) as [hs|]; [|discriminate E]. exists hs.
    destruct (propagate_all exactl ActToJntState hs _) as [m'| | |]; try discriminate E. exists m'. split; [reflexivity|]. split; [reflexivity|].
    intros Z. rewrite Z in E. discriminate E.
Qed.

(** ** C108: propagation writes target variables only *)

(** Any handle or interface, any memory, aliased variables and invalid data included: what is not a
    target of the maps that are run keeps its value, if the call returns. *)
Theorem C108_frame : forall (A : darith) K (handles : smap (handle A)) m m', propagate_all A K handles m = Ok m' ->
  forall a, m' a <> m a -> exists name h q, In (name, h) handles /\ In q (quantities A K h) /\
    In (Some a) (side q (if toward_joints K then h_jnt A h else h_act A h)).
Proof.
  intros A K handles m m' E a N. pose proof (propagate_all_only A K handles m m' E) as U.
  destruct (in_dec Nat.eq_dec a (flat_map (targets A K) (map snd handles))) as [H|H]; [|now destruct N; apply U].
  apply in_flat_map in H. destruct H as (h & Hh & Ha). apply in_map_iff in Hh. destruct Hh as ((n & h') & Eh & Hh). cbn in Eh. subst h'.
  apply in_flat_map in Ha. destruct Ha as (q & Hq & Ha). exists n, h, q. split; [exact Hh|]. split; [exact Hq|].
  unfold addrs in Ha. apply in_flat_map in Ha. destruct Ha as ([b|] & Hb & Ha); [destruct Ha as [<-|[]]; exact Hb | destruct Ha].
Qed.
Print Assumptions C108_frame.

(** A handle that reads and writes the same variable. *)
Example C108_frame_nonvacuous : exists m',
  propagate_all exactd ActToJntPosition [("h", mkHandle exactd "h" (Simple exactd (Some (2#1)%Q) (Some 0%Q)) (mkData [Some 0] [] [] [] []) (mkData [Some 0] [] [] [] []))]
    (fun _ => Some (8#1)%Q) = Ok m' /\ m' 0 <> Some (8#1)%Q /\ m' 1 = Some (8#1)%Q.
Proof. eexists. split; [vm_compute; reflexivity|]. split; [vm_compute; discriminate | reflexivity]. Qed.

(** ** C117: the loader keeps the transmissions its handles use *)

(** Handles refer to transmissions without owning them.  Whatever was loaded, whichever loads failed: a registered
    handle's transmission is among those the loader keeps.  (Transmissions are values here: two with the same
    parameters are not told apart.) *)
Theorem C117_kept : forall A acts cmds next infos K name h,
  let l := after A infos (new_loader A acts cmds next) in
  registered A K name h l -> In (h_trans A h) (l_transmissions A l).
Proof.
  intros A acts cmds next infos K name h l R.
  destruct (after_inv A infos _ (new_loader_inv A acts cmds next)) as (I & _).
  destruct R as (m & G & F).
  apply (after_kept A infos _ (new_loader_inv A acts cmds next)) with (K := K) (n := name).
  - intros K0 n h0 F0. destruct K0; discriminate F0.
  - fold l. rewrite bare_get in G by apply I. destruct (s_on (iface A K l)); [|discriminate G]. injection G as <-. exact F.
Qed.
Print Assumptions C117_kept.

(** None is ever dropped; a successful load adds the described transmission once for every hardware interface
    that the robot serves; nothing else is kept. *)
Theorem C117_exact : forall A acts cmds next infos i l' f,
  let l := after A infos (new_loader A acts cmds next) in
  load_info A i l = (l', Returned true) -> (forall hw, f hw = true <-> served A i l hw) ->
  exists t, as_described A i t /\ l_transmissions A l' = l_transmissions A l ++ repeat t (List.length (filter f (interfaces i))).
Proof.
  intros A acts cmds next infos i l' f l E F.
  destruct (after_inv A infos _ (new_loader_inv A acts cmds next)) as (I & _).
  destruct (load_info_kept A i l l' f I E F) as (t & HT & KT). exists t. split; [now apply described_iff | exact KT].
Qed.
Print Assumptions C117_exact.
Theorem C117_not_dropped : forall A acts cmds next infos more,
  exists new, l_transmissions A (after A (infos ++ more) (new_loader A acts cmds next)) =
              l_transmissions A (after A infos (new_loader A acts cmds next)) ++ new.
Proof.
  intros A acts cmds next infos more. unfold after. rewrite fold_left_app.
  apply (after_kept_grows A more), (after_inv A infos _ (new_loader_inv A acts cmds next)).
Qed.
Print Assumptions C117_not_dropped.
Example C117_nonvacuous :
  let l := after exactl [info_of bad_el; info_of good_el; info_of diff_el] l0 in
  (exists h, registered exactl JntToActPosition "diff" h l) /\ List.length (l_transmissions exactl l) = 3 /\
  exists l', load_info exactl (info_of good_el) l0 = (l', Returned true).
Proof.
  intros l. split; [|split; [vm_compute; reflexivity|]].
  - assert (E : match s_get (iface exactl JntToActPosition l) with Some m => match sfind "diff" m with Some _ => true | None => false end | None => false end = true) by (vm_compute; reflexivity).
    destruct (s_get (iface exactl JntToActPosition l)) as [m|] eqn:G; [|discriminate E]. destruct (sfind "diff" m) as [h|] eqn:F; [|discriminate E].
    exists h, m. auto.
  - assert (E : snd (load_info exactl (info_of good_el) l0) = Returned true) by (vm_compute; reflexivity).
    destruct (load_info exactl (info_of good_el) l0) as [l' o]. cbn in E. subst o. now exists l'.
Qed.

(** ** C118: joints show what the flags of their data say *)

(** Any robot, any flags set through the loader's data before the call, any outcome: a joint that the load adds has
    an absolute position or a torque sensor exactly if its data say so; joints that were there and raw data that
    existed are left alone.  The hypothesis: an interface of the loader that is not yet registered is empty. *)
Theorem C118_flags : forall A i l l' o, load_info A i l = (l', o) ->
  (s_get (l_jnt_state A l) = None -> s_mine (l_jnt_state A l) = []) ->
  (forall n r, sfind n (l_raw A l) = Some r -> sfind n (l_raw A l') = Some r) /\
  (forall n x, joint_shown A l n x -> joint_shown A l' n x) /\
  (forall n x, joint_shown A l' n x -> joint_shown A l n x \/ exists r, sfind n (l_raw A l') = Some r /\ flagged r x).
Proof.
  intros A i l l' o E I. destruct (load_info_step A i l) as (R & S). rewrite E in R, S. cbn [fst] in R, S.
  destruct (S I) as (_ & K & N). auto.
Qed.
Print Assumptions C118_flags.
(** A joint without absolute position, one without torque sensor, one with neither, one with both. *)
Example C118_nonvacuous :
  let l := set_raw exactl [("j1", mkRaw 20 false true); ("j2", mkRaw 28 true false); ("j3", mkRaw 36 false false)] 44 l0 in
  let l' := after exactl [info_of diff_el; info_of good_el] l in
  let show n := match s_get (l_jnt_state exactl l') with Some m => option_map (fun x => (js_abs x, js_tor x)) (sfind n m) | None => None end in
  s_get (l_jnt_state exactl l) = None /\ s_mine (l_jnt_state exactl l) = [] /\
  show "j1" = Some (None, Some 27) /\ show "j2" = Some (Some 34, None) /\ show "j3" = Some (None, None) /\ show "j4" = None.
Proof. repeat split; vm_compute; reflexivity. Qed.

(** ** C119: loading a robot description *)

(** A robot without interfaces of its own, whatever was loaded before, and a document with a root element, whose complete
    transmission elements are [ts].  Loading it succeeds exactly if there is one and each can be loaded on its own; then the
    transmissions have been loaded one after the other in the order of the document.  If not, those before the first that cannot be
    loaded have been.  No exception or assertion leaves [load]; behaviour is undefined only if a number element is without text. *)
Theorem C119_document : forall A acts cmds next earlier root ts,
  let l := after A earlier (new_loader A acts cmds next) in
  selects describes_transmission (children "transmission" root) ts ->
  exists l' o, load_urdf A (Root root) l = (l', o) /\
    (o = Returned true <-> ts <> [] /\ forall i, In i ts -> loadable A i l) /\
    (o = Returned true -> l' = after A ts l) /\
    (o <> Returned true -> exists pre post, ts = pre ++ post /\ l' = after A pre l /\ (forall i, In i pre -> loadable A i l) /\
       match post with [] => pre = [] | i :: _ => ~ loadable A i l end) /\
    o <> Threw /\ o <> AssertFailed /\ (o = Undefined -> exists i, In i ts /\ textless i).
Proof.
  intros A acts cmds next earlier root ts l S.
  destruct (after_inv A earlier _ (new_loader_inv A acts cmds next)) as (I & _). fold l in I.
  assert (P : parse (Root root) [] = ParseReturns true ts).
  { destruct (transmissions_loop_spec (children "transmission" root) []) as (ts' & E & S'). cbn. rewrite E. cbn.
    rewrite (C70_descriptions_unique _ _ _ S S'). reflexivity. }
  assert (CO : forall i, In i ts -> complete i).
  { intros i Hi. destruct (selects_in _ _ _ S i Hi) as (n & _ & D). eapply described_complete; eauto. }
  (* whether a description can be loaded does not depend on what was loaded before *)
  assert (LX : forall pre i, loadable A i (after A pre l) <-> loadable A i l).
  { intros pre i. destruct (after_inv A pre l I) as (_ & X). unfold loadable.
    split; intros (H1 & H2 & hw & H3 & H4); (split; [exact H1|]; split; [exact H2|]; exists hw; split; [exact H3|]); apply (served_ext A i _ _ hw X); exact H4. }
  assert (ONE : forall pre i, let '(l1, o) := load_info A i (after A pre l) in
            (o = Returned true <-> loadable A i l) /\ (o <> Returned true -> l1 = after A pre l)).
  { intros pre i. destruct (load_info A i (after A pre l)) as [l1 o] eqn:E. unfold l in E. unfold after in E at 1. unfold after in E. rewrite <- fold_left_app in E.
    destruct (C85_load A acts cmds next (earlier ++ pre) i l1 o E) as (U & _ & _ & _ & L).
    unfold after in U, L. rewrite fold_left_app in U, L. split; [|exact U]. rewrite L. exact (LX pre i). }
  assert (ALL : forall infos pre l' o, load_infos A infos (after A pre l) = (l', o) ->
            (o = Returned true -> l' = after A (pre ++ infos) l /\ forall i, In i infos -> loadable A i l) /\
            (o <> Returned true -> exists a i b, infos = a ++ i :: b /\ l' = after A (pre ++ a) l /\ (forall i, In i a -> loadable A i l) /\ ~ loadable A i l /\
               snd (load_info A i (after A (pre ++ a) l)) = o)).
  { induction infos as [|i infos IH]; intros pre l' o E; cbn [load_infos] in E.
    - injection E as <- <-. rewrite app_nil_r. split; [|congruence]. intros _. split; [reflexivity | intros i []].
    - pose proof (ONE pre i) as O. destruct (load_info A i (after A pre l)) as [l1 o1] eqn:E1. destruct O as (L & U).
      assert (A1 : o1 = Returned true -> l1 = after A (pre ++ [i]) l) by (intros ->; unfold after; rewrite fold_left_app; cbn; fold (after A pre l); now rewrite E1).
      assert (D : o1 = Returned true \/ o1 <> Returned true) by (destruct o1 as [[|]| | |]; auto; right; discriminate).
      destruct D as [-> | N].
      + rewrite (A1 eq_refl) in E. destruct (IH (pre ++ [i]) l' o E) as (H1 & H2). rewrite <- app_assoc in H1. cbn in H1. split.
        * intros Eo. destruct (H1 Eo) as (H3 & H4). split; [exact H3|]. intros i' [<-|Hi]; [now apply L | auto].
        * intros No. destruct (H2 No) as (a & i' & b & -> & H3 & H4 & H5 & H6). exists (i :: a), i', b. rewrite <- !app_assoc in *. cbn in *.
          split; [reflexivity|]. split; [exact H3|]. split; [|auto]. intros i0 [<-|Hi]; [now apply L | auto].
      + assert (E' : (l1, o1) = (l', o)) by (destruct o1 as [[|]| | |]; congruence). injection E' as <- <-. split; [congruence|]. intros _.
        exists [], i, infos. rewrite app_nil_r. split; [reflexivity|]. split; [auto|]. split; [intros i' []|]. split; [rewrite <- L; exact N | now rewrite E1]. }
  unfold load_urdf. rewrite P. destruct ts as [|i0 ts0].
  - exists l, (Returned false). split; [reflexivity|]. split; [split; [discriminate | intros (H & _); congruence]|]. split; [discriminate|].
    split; [intros _; exists [], []; split; [reflexivity|]; split; [reflexivity|]; split; [intros i [] | reflexivity]|].
    repeat split; discriminate.
  - destruct (load_infos A (i0 :: ts0) l) as [l' o] eqn:E. exists l', o. split; [reflexivity|].
    destruct (ALL (i0 :: ts0) [] l' o E) as (H1 & H2). cbn [app] in H1, H2.
    assert (D : o = Returned true \/ o <> Returned true) by (destruct o as [[|]| | |]; auto; right; discriminate).
    destruct D as [-> | N].
    + destruct (H1 eq_refl) as (-> & H4). split; [split; [intros _; split; [discriminate | exact H4] | reflexivity]|]. split; [reflexivity|]. split; [congruence|].
      repeat split; discriminate.
    + destruct (H2 N) as (a & i & b & Ets & H3 & H4 & H5 & H6).
      assert (Hi : In i (i0 :: ts0)) by (rewrite Ets; apply in_or_app; right; now left).
      split; [split; [congruence | intros (_ & H); destruct (H5 (H i Hi))]|]. split; [congruence|].
      split; [intros _; exists a, (i :: b); auto|].
      destruct (load_info A i (after A a l)) as [l1 o1] eqn:E1. cbn in H6. subst o1. unfold l, after in E1. rewrite <- fold_left_app in E1.
      destruct (C85_load A acts cmds next (earlier ++ a) i l1 o E1) as (_ & NT & NA & UD & _).
      split; [exact NT|]. split; [exact (NA (CO i Hi))|]. intros Eo. exists i. auto.
Qed.
Print Assumptions C119_document.

(** Text that is not XML is refused, and changes nothing. *)
Theorem C119_malformed : forall A l, load_urdf A Malformed l = (l, Returned false).
Proof. reflexivity. Qed.
Print Assumptions C119_malformed.
(** A document without a root element (only an XML declaration or a comment) is not refused: the root element is used without a check. *)
Theorem C119_no_root_refuted : forall A l, load_urdf A NoElement l = (l, Undefined).
Proof. reflexivity. Qed.
Print Assumptions C119_no_root_refuted.

Example C119_nonvacuous :
  snd (load_urdf exactl (Root (robot_el [good_el; el "link" "?"; diff_el])) l0) = Returned true /\
  snd (load_urdf exactl (Root (robot_el [good_el; bad_el; diff_el])) l0) = Returned false /\
  (exists ts, List.length ts = 2 /\ selects describes_transmission (children "transmission" (robot_el [good_el; el "link" "?"; diff_el])) ts).
Proof.
  split; [vm_compute; reflexivity|]. split; [vm_compute; reflexivity|].
  destruct (C70_parse (Root (robot_el [good_el; el "link" "?"; diff_el])) []) as (ts & E & S). exists ts. split; [|exact S].
  assert (L : match parse (Root (robot_el [good_el; el "link" "?"; diff_el])) [] with ParseReturns _ ts => List.length ts | _ => 0 end = 2) by (vm_compute; reflexivity).
  rewrite E in L. exact L.
Qed.
