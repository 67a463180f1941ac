(** Proofs about the loader of transmissions: what loading does to the interfaces. *)
From Coq Require Import Permutation Lia.
From Verif Require Import SMapProofs TransSpec TransProofs TransHandle LoadModel LoadSpec ParseProofs LoadProofs.
Local Open Scope string_scope.
Local Open Scope list_scope.
Local Open Scope nat_scope.

Section Load.
Context (A : larith).
Notation loader := (loader A).
Notation inv := (inv A). Notation ext := (ext A).

(** ** Registering in a transmission interface *)

Definition set_iface (K : hkind) (s : slot (handle A)) (l : loader) : loader :=
  match K with
  | ActToJntState => set_a2j_state A s l | JntToActState => set_j2a_state A s l
  | JntToActPosition => set_j2a_cmd A Pos s l | JntToActVelocity => set_j2a_cmd A Vel s l | JntToActEffort => set_j2a_cmd A Eff s l
  | ActToJntPosition => set_a2j_cmd A Pos s l | ActToJntVelocity => set_a2j_cmd A Vel s l | ActToJntEffort => set_a2j_cmd A Eff s l
  end.
Definition enter (K : hkind) (name : string) (h : handle A) (l : loader) : loader :=
  set_iface K (s_put name h (s_ensure (iface A K l))) l.

Lemma iface_set K K' s l : iface A K (set_iface K' s l) = if hkind_dec K K' then s else iface A K l.
Proof. destruct (hkind_dec K K') as [->|N]; [destruct K'; reflexivity|]. destruct K, K'; try congruence; reflexivity. Qed.

Definition forward (k : command) : hkind := match k with Pos => JntToActPosition | Vel => JntToActVelocity | Eff => JntToActEffort end.
Definition backward (k : command) : hkind := match k with Pos => ActToJntPosition | Vel => ActToJntVelocity | Eff => ActToJntEffort end.

Lemma enter_mine K K' n n' h l : inv l ->
  sfind n (s_mine (iface A K (enter K' n' h l))) =
  if hkind_dec K K' then (if (n =? n')%string then Some h else sfind n (s_mine (iface A K l))) else sfind n (s_mine (iface A K l)).
Proof.
  intros I. unfold enter. rewrite iface_set. destruct (hkind_dec K K') as [->|N]; [|reflexivity].
  rewrite bare_ensure by apply I. rewrite bare_put by (first [reflexivity | exact (bare_on _)]). cbn. apply sfind_sset.
Qed.

Lemma enter_inv K n h l : inv l -> inv (enter K n h l) /\ ext l (enter K n h l).
Proof.
  intros I. unfold enter. rewrite bare_ensure by apply I. rewrite bare_put by (first [reflexivity | exact (bare_on _)]).
  split.
  - constructor; try (destruct K; apply I).
    intros K'. rewrite iface_set. destruct (hkind_dec K' K); [apply bare_on | apply I].
  - constructor; try (destruct K; reflexivity); try (destruct K; apply keeps_refl); destruct K; auto using keeps_refl.
Qed.

Definition made (d : handle_data A) : handle A := mkHandle A (hd_name A d) (hd_trans A d) (hd_act_state A d) (hd_jnt_state A d).
Definition made_cmd (d : handle_data A) : handle A := mkHandle A (hd_name A d) (hd_trans A d) (hd_act_cmd A d) (hd_jnt_cmd A d).
Definition good_state (d : handle_data A) : Prop :=
  make_handle A (hd_name A d) (Some (hd_trans A d)) (hd_act_state A d) (hd_jnt_state A d) = Some (made d).
Definition good_cmd (d : handle_data A) : Prop :=
  make_handle A (hd_name A d) (Some (hd_trans A d)) (hd_act_cmd A d) (hd_jnt_cmd A d) = Some (made_cmd d).

Lemma register_state_eq d l : good_state d -> register_state A d l = (enter ActToJntState (hd_name A d) (made d) l, true).
Proof. intros G. unfold register_state. now rewrite G. Qed.
Lemma register_command_eq k d l : good_state d -> good_cmd d ->
  register_command A k d l =
  (enter (forward k) (hd_name A d) (made_cmd d)
     (if has_resource (hd_name A d) (s_mine (iface A ActToJntState l)) then l else enter ActToJntState (hd_name A d) (made d) l), true).
Proof.
  intros G G'. unfold register_command. cbn [iface].
  destruct (has_resource (hd_name A d) (s_mine (l_a2j_state A l))).
  - cbn [negb]. rewrite G'. destruct k; reflexivity.
  - rewrite register_state_eq by exact G. cbn [negb]. rewrite G'. destruct k; reflexivity.
Qed.
Lemma register_both_eq k d l : good_state d -> good_cmd d ->
  register_both A k d l =
  (let l1 := fst (register_command A k d l) in
   let l2 := if has_resource (hd_name A d) (s_mine (iface A JntToActState l1)) then l1 else enter JntToActState (hd_name A d) (made d) l1 in
   enter (backward k) (hd_name A d) (made_cmd d) l2, true).
Proof.
  intros G G'. unfold register_both. rewrite register_command_eq by assumption. cbn [negb fst].
  set (l1 := enter (forward k) _ _ _). cbn [iface].
  destruct (has_resource (hd_name A d) (s_mine (l_j2a_state A l1))); cbn [negb].
  - rewrite G'. destruct k; reflexivity.
  - rewrite G. cbn [negb]. rewrite G'. destruct k; reflexivity.
Qed.

(** What one call of a registering function does under the name of the transmission. *)
Record entered (i : transmission_info) (kinds : list hkind) (l l' : loader) : Prop := {
  ent_inv : inv l';
  ent_ext : ext l l';
  ent_other : forall K n, n <> ti_name i -> sfind n (s_mine (iface A K l')) = sfind n (s_mine (iface A K l));
  ent_kind : forall K, ~ In K kinds -> sfind (ti_name i) (s_mine (iface A K l')) = sfind (ti_name i) (s_mine (iface A K l));
  ent_new : forall K h, sfind (ti_name i) (s_mine (iface A K l')) = Some h ->
    connects A K i l' h \/ sfind (ti_name i) (s_mine (iface A K l)) = Some h;
  ent_sorted : (forall K, ssorted (s_mine (iface A K l))) -> forall K, ssorted (s_mine (iface A K l'));
  ent_all : forall K, In K kinds -> exists h, sfind (ti_name i) (s_mine (iface A K l')) = Some h }.

Lemma entered_refl i l : inv l -> entered i [] l l.
Proof. intros I. constructor; auto using ext_refl; easy. Qed.
Lemma entered_trans i ks ks' l l' l'' : entered i ks l l' -> entered i ks' l' l'' -> entered i (ks ++ ks') l l''.
Proof.
  intros E E'. constructor.
  - apply E'.
  - eapply ext_trans; [apply E | apply E'].
  - intros K n N. rewrite (ent_other _ _ _ _ E' K n N). now apply E.
  - intros K N. rewrite (ent_kind _ _ _ _ E' K), (ent_kind _ _ _ _ E K); auto; intros H; apply N, in_or_app; auto.
  - intros K h H. destruct (ent_new _ _ _ _ E' K h H) as [C|H']; [auto|].
    destruct (ent_new _ _ _ _ E K h H') as [C|H'']; [left|auto]. eapply connects_ext; [apply E' | exact C].
  - intros S. apply E', E, S.
  - intros K H. apply in_app_or in H. destruct H as [H|H]; [|now apply E'].
    destruct (ent_all _ _ _ _ E K H) as (h & Hh).
    destruct (in_dec hkind_dec K ks') as [D|D]; [now apply E'|]. exists h. now rewrite (ent_kind _ _ _ _ E' K D).
Qed.

Lemma enter_entered i K h l : inv l -> connects A K i l h -> entered i [K] l (enter K (ti_name i) h l).
Proof.
  intros I C. destruct (enter_inv K (ti_name i) h l I) as (I' & X). constructor; auto.
  - intros K' n N. rewrite enter_mine by exact I. destruct (hkind_dec K' K); [|reflexivity].
    destruct (String.eqb_spec n (ti_name i)); [congruence | reflexivity].
  - intros K' N. rewrite enter_mine by exact I. destruct (hkind_dec K' K) as [->|]; [|reflexivity]. now destruct N; left.
  - intros K' h'. rewrite enter_mine by exact I. destruct (hkind_dec K' K) as [->|]; [|auto].
    rewrite String.eqb_refl. intros [= <-]. left. eapply connects_ext; eauto.
  - intros S K'. unfold enter. rewrite iface_set. destruct (hkind_dec K' K) as [->|]; [|apply S].
    rewrite bare_ensure by apply I. rewrite bare_put by (first [reflexivity | exact (bare_on _)]). cbn. apply sset_sorted, S.
  - intros K' [<-|[]]. rewrite enter_mine by exact I. destruct (hkind_dec K K); [|congruence]. rewrite String.eqb_refl. eauto.
Qed.
(** Registering unless there is one already. *)
Lemma enter_unless i K h l : inv l -> connects A K i l h ->
  entered i [K] l (if has_resource (ti_name i) (s_mine (iface A K l)) then l else enter K (ti_name i) h l).
Proof.
  intros I C. unfold has_resource. destruct (sfind (ti_name i) (s_mine (iface A K l))) as [h'|] eqn:E; [|now apply enter_entered].
  constructor; auto using ext_refl. intros K' [<-|[]]. eauto.
Qed.

(** ** [loadTransmissionMaps] *)

Definition kinds (p : provider) : list hkind :=
  match p with
  | StateProvider => [ActToJntState]
  | CommandProvider k => [ActToJntState; forward k]
  | BothProvider k => [ActToJntState; forward k; JntToActState; backward k]
  end.
Lemma provider_asks hw : asks hw = match provider_of hw with Some p => kinds p | None => [] end.
Proof.
  unfold asks, provider_of.
  repeat match goal with |- context [string_dec hw ?s] =>
    destruct (string_dec hw s); [subst hw; reflexivity | destruct (String.eqb_spec hw s); [contradiction|]] end.
  reflexivity.
Qed.

Lemma commands_forward k : commands (forward k) = Some k.
Proof. destruct k; reflexivity. Qed.
Lemma commands_backward k : commands (backward k) = Some k.
Proof. destruct k; reflexivity. Qed.
Lemma commands_kinds p K : In K (kinds p) -> commands K = None \/ commands K = commanded p.
Proof.
  destruct p as [|k|k]; cbn.
  - intros [<-|[]]; auto.
  - intros [<-|[<-|[]]]; auto. right. apply commands_forward.
  - intros [<-|[<-|[<-|[<-|[]]]]]; auto; right; [apply commands_forward | apply commands_backward].
Qed.
Lemma commanded_kinds p k : commanded p = Some k -> exists K, In K (kinds p) /\ commands K = Some k.
Proof.
  destruct p as [|k'|k']; cbn; [discriminate|..]; intros [= <-]; exists (forward k'); rewrite commands_forward; auto.
Qed.
Lemma kinds_first p : In ActToJntState (kinds p).
Proof. destruct p; cbn; auto. Qed.

Lemma add_transmission_inv t l : inv l -> inv (add_transmission A t l) /\ ext l (add_transmission A t l).
Proof.
  intros I. split.
  - constructor; apply I.
  - constructor; auto; apply keeps_refl || (intros; apply keeps_refl).
Qed.

Lemma in_names {T} (f : T -> string) l n : In n (map f l) -> exists x, n = f x /\ In x l.
Proof. intros H. apply in_map_iff in H. destruct H as (x & <- & H). eauto. Qed.

(** The data found after the joints have been added. *)
Lemma states_connected i l t act jnt : inv l -> s_on (l_jnt_state A l) = true ->
  load_transmission A i = Got t -> actuator_state_data A i l = Some act -> joint_state_data A i l = Some jnt ->
  connects_states A i l (mkHandle A (ti_name i) t act jnt).
Proof.
  intros I O HT HA HJ. unfold actuator_state_data in HA. unfold joint_state_data in HJ.
  pose proof (actuator_handles_spec i (l_act_state A l)) as FA.
  destruct (actuator_handles i (l_act_state A l)) as [acts|]; [|discriminate]. injection HA as <-.
  destruct FA as (ma & E1 & E2).
  pose proof (find_all_spec (map ji_name (ti_joints i)) (l_raw A l)) as FJ.
  destruct (find_all (map ji_name (ti_joints i)) (l_raw A l)) as [rs|]; [|discriminate].
  assert (FL : Forall (fun r => rj_has_abs r = true /\ rj_has_tor r = true) rs).
  { clear HJ. induction FJ as [|n r ns rs E F IH]; constructor; auto. split; eapply (inv_raw _ _ I); eauto. }
  assert (B1 : forallb rj_has_abs rs = true) by (apply forallb_forall; rewrite Forall_forall in FL; intros r Hr; now apply FL).
  assert (B2 : forallb rj_has_tor rs = true) by (apply forallb_forall; rewrite Forall_forall in FL; intros r Hr; now apply FL).
  rewrite B1, B2 in HJ. injection HJ as <-.
  assert (SH : forall r, In r rs -> state_handle r = mkJntState (raw_pos r) (raw_vel r) (raw_eff r) (Some (raw_abs r)) (Some (raw_tor r))).
  { intros r Hr. rewrite Forall_forall in FL. destruct (FL r Hr) as [F1 F2]. unfold state_handle. now rewrite F1, F2. }
  exists ma, acts, (s_mine (l_jnt_state A l)), (map state_handle rs).
  assert (MM : forall U (f : jnt_state -> U) (g : raw -> U), (forall r, In r rs -> f (state_handle r) = g r) -> map g rs = map f (map state_handle rs)).
  { intros U f g H. rewrite map_map. apply map_ext_in. intros r Hr. symmetry. auto. }
  split; [exact E1|]. split; [exact E2|].
  split; [rewrite bare_get by apply I; now rewrite O|].
  split; [eapply entries_map; [|exact FJ]; intros n r E; rewrite (inv_state _ _ I), E; reflexivity|].
  cbn [side h_act h_jnt d_position d_velocity d_effort d_absolute_position d_torque_sensor].
  split; [reflexivity|]. split; [apply MM; intros r Hr; now rewrite SH|].
  split; [reflexivity|]. split; [apply MM; intros r Hr; now rewrite SH|].
  split; [reflexivity|]. split; [apply MM; intros r Hr; now rewrite SH|].
  split; [apply if_all_intro|].
  split; [apply Forall_forall; intros x Hx; apply in_map_iff in Hx; destruct Hx as (r & <- & Hr); rewrite SH by exact Hr; discriminate|].
  split; [apply MM; intros r Hr; now rewrite SH|].
  split; [apply if_all_intro|].
  split; [apply Forall_forall; intros x Hx; apply in_map_iff in Hx; destruct Hx as (r & <- & Hr); rewrite SH by exact Hr; discriminate|].
  apply MM; intros r Hr; now rewrite SH.
Qed.

Lemma commands_connected k i l t act jnt : inv l -> s_on (l_jnt_state A l) = true -> s_on (tget k (l_jnt_cmd A l)) = true ->
  (forall j, In j (ti_joints i) -> exists x, sfind (ji_name j) (s_mine (tget k (l_jnt_cmd A l))) = Some x) ->
  load_transmission A i = Got t -> actuator_command_data A k i l = Some act -> joint_command_data A k i l = Some jnt ->
  connects_commands A k i l (mkHandle A (ti_name i) t act jnt).
Proof.
  intros I OS O P HT HA HJ. unfold actuator_command_data in HA. unfold joint_command_data in HJ.
  pose proof (actuator_handles_spec i (tget k (l_act_cmd A l))) as FA.
  destruct (actuator_handles i (tget k (l_act_cmd A l))) as [acts|]; [|discriminate]. injection HA as <-.
  destruct FA as (ma & E1 & E2).
  pose proof (find_all_spec (map ji_name (ti_joints i)) (l_raw A l)) as FJ.
  destruct (find_all (map ji_name (ti_joints i)) (l_raw A l)) as [rs|]; [|discriminate]. injection HJ as <-.
  set (f := fun r => mkJntCmd (state_handle r) (raw_cmd k r)).
  exists ma, acts, (s_mine (tget k (l_jnt_cmd A l))), (map f rs), (s_mine (l_jnt_state A l)).
  split; [exact E1|]. split; [exact E2|].
  split; [rewrite bare_get by apply I; now rewrite O|].
  split.
  { assert (P' : forall n, In n (map ji_name (ti_joints i)) -> exists x, sfind n (s_mine (tget k (l_jnt_cmd A l))) = Some x).
    { intros n H. apply in_names in H. destruct H as (j & -> & Hj). auto. }
    clear P. revert P' FJ. generalize (map ji_name (ti_joints i)) as ns. intros ns P' FJ. unfold entries in *.
    induction FJ as [|n r ns rs E F IH]; cbn; constructor.
    - destruct (P' n (or_introl eq_refl)) as (x & Hx). rewrite Hx. destruct (inv_cmd _ _ I k n x Hx) as (r' & E' & ->). unfold f. congruence.
    - apply IH. intros m Hm. apply P'. now right. }
  split; [rewrite bare_get by apply I; now rewrite OS|].
  split; [rewrite map_map; eapply entries_map; [|exact FJ]; intros n r E; cbn; rewrite (inv_state _ _ I), E; reflexivity|].
  split; [destruct k; reflexivity|]. split; [rewrite map_map; destruct k; reflexivity|].
  intros q N. destruct k, q; cbn in N; try congruence; auto.
Qed.

Lemma load_maps_spec p i t l : inv l -> load_transmission A i = Got t ->
  exists l' o, load_maps A p i t l = (l', o) /\
  ((l' = l /\ o = Returned false /\ ~ (forall K, In K (kinds p) -> on_robot A K i l)) \/
   (o = Returned true /\ (forall K, In K (kinds p) -> on_robot A K i l) /\ entered i (kinds p) l l')).
Proof.
  intros I HT. unfold load_maps, actuator_state_data at 1.
  pose proof (actuator_handles_spec i (l_act_state A l)) as FA.
  destruct (actuator_handles i (l_act_state A l)) as [acts|] eqn:EA.
  2:{ do 2 eexists. split; [reflexivity|]. left. repeat split. intros H.
      destruct (H ActToJntState (kinds_first p)) as ((m & xs & E & E') & _). exact (FA m xs E E'). }
  set (act := mkData _ _ _ _ _).
  assert (HA : forall l', l_act_state A l' = l_act_state A l -> actuator_state_data A i l' = Some act).
  { intros l' E. unfold actuator_state_data. rewrite E, EA. reflexivity. }
  destruct FA as (ma & E1 & E2).
  destruct (commanded p) as [k|] eqn:EP.
  - (* with commands *)
    unfold actuator_command_data at 1.
    pose proof (actuator_handles_spec i (tget k (l_act_cmd A l))) as FC.
    destruct (actuator_handles i (tget k (l_act_cmd A l))) as [cmds|] eqn:EC.
    2:{ do 2 eexists. split; [reflexivity|]. left. repeat split. intros H.
        destruct (commanded_kinds p k EP) as (K & HK & CK). destruct (H K HK) as (_ & H'). rewrite CK in H'.
        destruct H' as (m & xs & E & E'). exact (FC m xs E E'). }
    set (cmd := command_data k _).
    assert (HC : forall l', l_act_cmd A l' = l_act_cmd A l -> actuator_command_data A k i l' = Some cmd).
    { intros l' E. unfold actuator_command_data. rewrite E, EC. reflexivity. }
    destruct FC as (mc & E3 & E4).
    destruct (update_joint_commands_spec A k i l I) as (l1 & EU & I1 & X1 & R1 & OS & O & P1 & P2).
    rewrite EU. cbn [negb].
    destruct (find_all_ex (map ji_name (ti_joints i)) (l_raw A l1)) as (rs & ER & _).
    { intros n H. apply in_names in H. destruct H as (j & -> & Hj). auto. }
    assert (EJS : exists jnt, joint_state_data A i l1 = Some jnt) by (unfold joint_state_data; rewrite ER; eauto).
    assert (EJC : exists jnt, joint_command_data A k i l1 = Some jnt) by (unfold joint_command_data; rewrite ER; eauto).
    destruct EJS as (js & EJS), EJC as (jc & EJC). rewrite EJS, EJC.
    destruct (add_transmission_inv t l1 I1) as (I2 & X2). set (l2 := add_transmission A t l1) in *.
    set (d := mkHData A (ti_name i) t act cmd js jc).
    assert (XS : connects_states A i l2 (made d)).
    { eapply states_connected; eauto. apply HA. cbn. apply X1. }
    assert (XC : connects_commands A k i l2 (made_cmd d)).
    { eapply commands_connected; eauto. apply HC. cbn. apply X1. }
    assert (CS : forall K, commands K = None -> connects A K i l2 (made d)).
    { intros K CK. split; [reflexivity|]. split; [now apply described_iff|]. now rewrite CK. }
    assert (CC : forall K, commands K = Some k -> connects A K i l2 (made_cmd d)).
    { intros K CK. split; [reflexivity|]. split; [now apply described_iff|]. now rewrite CK. }
    assert (GS : good_state d) by (exact (proj1 (connects_made A ActToJntState i l2 (made d) (CS ActToJntState eq_refl)))).
    assert (GC : good_cmd d) by (exact (proj1 (connects_made A (forward k) i l2 (made_cmd d) (CC _ (commands_forward k))))).
    assert (R2 : forall K, iface A K l2 = iface A K l).
    { intros K. destruct R1 as [R1 _]. rewrite <- (R1 K). destruct K; reflexivity. }
    assert (ST : entered i [] l l2).
    { constructor; try easy; try (intros; rewrite R2; auto; fail).
      - eapply ext_trans; eauto.
      - intros K h. rewrite R2. auto. }
    assert (RC : entered i [ActToJntState; forward k] l2 (fst (register_command A k d l2))).
    { rewrite register_command_eq by assumption. cbn [fst].
      change [ActToJntState; forward k] with ([ActToJntState] ++ [forward k]).
      assert (S1 := enter_unless i ActToJntState (made d) l2 I2 (CS ActToJntState eq_refl)).
      eapply entered_trans; [exact S1|]. apply enter_entered; [apply S1|].
      eapply connects_ext; [apply S1|]. apply CC, commands_forward. }
    assert (ON : forall K, In K (kinds p) -> on_robot A K i l).
    { intros K HK. split; [eauto|]. destruct (commands_kinds p K HK) as [-> | ->]; [exact Logic.I|]. rewrite EP. eauto. }
    destruct p as [|k'|k']; cbn in EP; try discriminate EP; injection EP as ->.
    + rewrite (register_command_eq k d l2 GS GC) in RC |- *. do 2 eexists. split; [reflexivity|]. right. split; [reflexivity|]. split; [exact ON|].
      exact (entered_trans _ [] _ _ _ _ ST RC).
    + rewrite (register_both_eq k d l2 GS GC). do 2 eexists. split; [reflexivity|]. right. split; [reflexivity|]. split; [exact ON|].
      refine (entered_trans _ [] _ _ _ _ ST _).
      refine (entered_trans i [ActToJntState; forward k] ([JntToActState] ++ [backward k]) _ _ _ RC _). set (l3 := fst (register_command A k d l2)) in *. cbn zeta.
      assert (S1 := enter_unless i JntToActState (made d) l3 (ent_inv _ _ _ _ RC)
                      (connects_ext _ _ _ _ _ _ (ent_ext _ _ _ _ RC) (CS JntToActState eq_refl))).
      eapply entered_trans; [exact S1|]. apply enter_entered; [apply S1|].
      eapply connects_ext; [apply S1|]. eapply connects_ext; [apply RC|]. apply CC, commands_backward.
  - (* states only *)
    destruct p; cbn in EP; try discriminate EP.
    destruct (update_joint_states_spec A i l I) as (I1 & X1 & R1 & OS & C1 & P1). set (l1 := update_joint_states A i l) in *.
    cbn [negb].
    destruct (find_all_ex (map ji_name (ti_joints i)) (l_raw A l1)) as (rs & ER & _).
    { intros n H. apply in_names in H. destruct H as (j & -> & Hj). auto. }
    assert (EJS : exists jnt, joint_state_data A i l1 = Some jnt) by (unfold joint_state_data; rewrite ER; eauto).
    destruct EJS as (js & EJS). rewrite EJS.
    destruct (add_transmission_inv t l1 I1) as (I2 & X2). set (l2 := add_transmission A t l1) in *.
    set (d := mkHData A (ti_name i) t act no_data js no_data).
    assert (XS : connects_states A i l2 (made d)).
    { eapply states_connected; eauto. apply HA. cbn. apply X1. }
    assert (CS : connects A ActToJntState i l2 (made d)).
    { split; [reflexivity|]. split; [now apply described_iff|]. exact XS. }
    assert (GS : good_state d) by (exact (proj1 (connects_made A ActToJntState i l2 (made d) CS))).
    rewrite register_state_eq by exact GS. do 2 eexists. split; [reflexivity|]. right. split; [reflexivity|].
    split; [intros K [<-|[]]; split; [eauto | exact Logic.I]|].
    refine (entered_trans _ [] _ _ _ _ _ (enter_entered _ _ _ _ I2 CS)).
    assert (R2 : forall K, iface A K l2 = iface A K l).
    { intros K. destruct R1 as [R1 _]. rewrite <- (R1 K). destruct K; reflexivity. }
    constructor; try easy; try (intros; rewrite R2; auto; fail).
    + eapply ext_trans; eauto.
    + intros K h. rewrite R2. auto.
Qed.

(** ** [load] *)

Lemma on_robot_ext K i l l' : ext l l' -> on_robot A K i l' <-> on_robot A K i l.
Proof. intros X. unfold on_robot. now rewrite (ext_as _ _ _ X), (ext_ac _ _ _ X). Qed.

Lemma kinds_nonempty p : kinds p <> [].
Proof. destruct p; discriminate. Qed.

Lemma load_ifaces_spec hws : forall i t b l, inv l -> load_transmission A i = Got t ->
  exists l' b' ks, load_ifaces A hws i t b l = (l', Returned b') /\ entered i ks l l' /\
    (b' = true <-> b = true \/ exists hw, In hw hws /\ served A i l hw) /\
    ((forall hw, In hw hws -> ~ served A i l hw) -> l' = l) /\
    (forall K, In K ks <-> exists hw, In hw hws /\ served A i l hw /\ In K (asks hw)).
Proof.
  induction hws as [|hw hws IH]; intros i t b l I HT; cbn [load_ifaces].
  - exists l, b, []. split; [reflexivity|]. split; [now apply entered_refl|]. split; [split; [auto|intros [->|(hw & [] & _)]; reflexivity]|].
    split; [reflexivity|]. intros K. split; [easy|]. intros (hw & [] & _).
  - pose proof (provider_asks hw) as PA. destruct (provider_of hw) as [p|].
    + destruct (load_maps_spec p i t l I HT) as (l1 & o & E & [(-> & -> & N)|(-> & ON & EN)]); rewrite E.
      * destruct (IH i t (b || false) l I HT) as (l' & b' & ks & E' & EN & B & U & KS). rewrite orb_false_r in *.
        assert (NS : ~ served A i l hw) by (intros (_ & H); rewrite PA in H; auto).
        exists l', b', ks. split; [exact E'|]. split; [exact EN|]. split; [|split].
        -- rewrite B. split; (intros [H|(w & Hw & S)]; [auto|right]); [exists w; cbn; auto | destruct Hw as [->|Hw]; [contradiction | eauto]].
        -- intros H. apply U. intros w Hw. apply H. now right.
        -- intros K. rewrite KS. split; intros (w & Hw & S & HK); [exists w; cbn; auto | destruct Hw as [->|Hw]; [contradiction | eauto]].
      * destruct (IH i t (b || true) l1 (ent_inv _ _ _ _ EN) HT) as (l' & b' & ks & E' & EN' & B & U & KS).
        assert (SV : served A i l hw) by (split; rewrite PA; [apply kinds_nonempty | exact ON]).
        assert (SX : forall w, served A i l1 w <-> served A i l w).
        { intros w. unfold served. split; intros (H1 & H2); (split; [exact H1|]); intros K HK; apply (on_robot_ext K i l l1 (ent_ext _ _ _ _ EN)); auto. }
        exists l', b', (kinds p ++ ks). split; [exact E'|]. split; [eapply entered_trans; eauto|]. split; [|split].
        -- split; intros _; [right; exists hw; cbn; auto|]. apply B. left. apply orb_true_r.
        -- intros H. exfalso. exact (H hw (or_introl eq_refl) SV).
        -- intros K. rewrite in_app_iff, KS. split.
           ++ intros [HK|(w & Hw & S & HK)]; [exists hw; rewrite PA; cbn; auto | exists w; rewrite <- SX; cbn; auto].
           ++ intros (w & [<-|Hw] & S & HK); [left; now rewrite <- PA | right; exists w; rewrite SX; auto].
    + destruct (IH i t b l I HT) as (l' & b' & ks & E' & EN & B & U & KS).
      assert (NS : ~ served A i l hw) by (intros (H & _); contradiction).
      exists l', b', ks. split; [exact E'|]. split; [exact EN|]. split; [|split].
      * rewrite B. split; (intros [H|(w & Hw & S)]; [auto|right]); [exists w; cbn; auto | destruct Hw as [->|Hw]; [contradiction | eauto]].
      * intros H. apply U. intros w Hw. apply H. now right.
      * intros K. rewrite KS. split; intros (w & Hw & S & HK); [exists w; cbn; auto | destruct Hw as [->|Hw]; [contradiction | eauto]].
Qed.

Lemma load_info_spec i l : inv l ->
  exists l' o ks, load_info A i l = (l', o) /\ entered i ks l l' /\ o <> Threw /\ (o <> Returned true -> l' = l /\ ks = []) /\
    (complete i -> o <> AssertFailed) /\
    (o = Returned true -> (exists t, load_transmission A i = Got t) /\ In ActToJntState ks /\
       (exists hw, In hw (interfaces i) /\ served A i l hw) /\
       forall K, In K ks <-> exists hw, In hw (interfaces i) /\ served A i l hw /\ In K (asks hw)).
Proof.
  intros I. unfold load_info, interfaces.
  assert (NO : forall o, o <> Threw -> o <> Returned true -> (complete i -> o <> AssertFailed) ->
    exists l' o' ks, (l, o) = (l', o') /\ entered i ks l l' /\ o' <> Threw /\ (o' <> Returned true -> l' = l /\ ks = []) /\
    (complete i -> o' <> AssertFailed) /\ (o' = Returned true -> (exists t, load_transmission A i = Got t) /\ In ActToJntState ks /\
       (exists hw, In hw (interfaces i) /\ served A i l hw) /\
       forall K, In K ks <-> exists hw, In hw (interfaces i) /\ served A i l hw /\ In K (asks hw))).
  { intros o N1 N2 N3. exists l, o, []. split; [reflexivity|]. split; [now apply entered_refl|]. split; [exact N1|]. split; [auto|].
    split; [exact N3|]. intros ->. now destruct N2. }
  unfold interfaces in NO.
  destruct (load_transmission A i) as [t| |] eqn:HT; [|apply NO; discriminate..].
  destruct (ti_joints i) as [|j js] eqn:EJ.
  { apply NO; try discriminate. intros [H _] _. now apply H. }
  destruct (ji_ifaces j) as [|hw hws] eqn:EI.
  { apply NO; try discriminate. intros [_ H] _. apply (H j); [rewrite EJ; now left | exact EI]. }
  destruct (same_interfaces (hw :: hws) (j :: js)); [|apply NO; discriminate].
  destruct (load_ifaces_spec (hw :: hws) i t false l I HT) as (l' & b' & ks & E & EN & B & U & KS).
  destruct b'.
  - exists l', (Returned true), ks. split; [exact E|]. split; [exact EN|]. split; [discriminate|]. split; [congruence|]. split; [discriminate|].
    intros _. destruct (proj1 B eq_refl) as [H|(w & Hw & S)]; [discriminate|].
    split; [eauto|]. split; [|split; [eauto|exact KS]]. apply KS. exists w. split; [exact Hw|]. split; [exact S|].
    destruct S as (N & _). pose proof (provider_asks w) as PA. destruct (provider_of w); rewrite PA in *; [apply kinds_first | congruence].
  - assert (NS : forall w, In w (hw :: hws) -> ~ served A i l w).
    { intros w Hw S. assert (false = true) by (apply B; eauto). discriminate. }
    rewrite (U NS) in E. rewrite E. apply NO; discriminate.
Qed.

(** ** Sequences *)

Lemma new_loader_inv act_state act_cmd next : inv (new_loader A act_state act_cmd next).
Proof.
  constructor; cbn; auto using bare_none; try discriminate.
  - intros k. destruct k; apply bare_none.
  - intros K. destruct K; apply bare_none.
  - intros k n x. destruct k; discriminate.
Qed.

Lemma load_info_inv i l : inv l -> inv (fst (load_info A i l)) /\ ext l (fst (load_info A i l)).
Proof.
  intros I. destruct (load_info_spec i l I) as (l' & o & ks & E & EN & _). rewrite E. split; apply EN.
Qed.
Lemma after_inv infos : forall l, inv l -> inv (after A infos l) /\ ext l (after A infos l).
Proof.
  induction infos as [|i infos IH]; intros l I; [split; [exact I | apply ext_refl]|]. cbn.
  destruct (load_info_inv i l I) as (I' & X). destruct (IH _ I') as (I'' & X'). split; [exact I''|]. eapply ext_trans; eauto.
Qed.

Lemma after_sorted infos : forall l, inv l -> (forall K, ssorted (s_mine (iface A K l))) -> forall K, ssorted (s_mine (iface A K (after A infos l))).
Proof.
  induction infos as [|i infos IH]; intros l I S; [exact S|]. cbn.
  destruct (load_info_spec i l I) as (l' & o & ks & E & EN & _). rewrite E. cbn [fst]. apply IH; [apply EN | now apply EN].
Qed.
Lemma new_sorted act_state act_cmd next K : ssorted (s_mine (iface A K (new_loader A act_state act_cmd next))).
Proof. destruct K; constructor. Qed.

(** Every registered handle does what one of the loaded descriptions with its name says. *)
Definition sourced (infos : list transmission_info) (l : loader) : Prop :=
  forall K n h, sfind n (s_mine (iface A K l)) = Some h -> exists i, In i infos /\ ti_name i = n /\ connects A K i l h.

Lemma sourced_step infos i ks l l' : sourced infos l -> entered i ks l l' -> sourced (i :: infos) l'.
Proof.
  intros S E K n h H. destruct (string_dec n (ti_name i)) as [->|N].
  - destruct (ent_new _ _ _ _ E K h H) as [C|H']; [exists i; cbn; auto|].
    destruct (S K _ h H') as (i' & Hi & Hn & C). exists i'. split; [now right|]. split; [exact Hn|]. eapply connects_ext; [apply E | exact C].
  - rewrite (ent_other _ _ _ _ E K n N) in H. destruct (S K _ h H) as (i' & Hi & Hn & C). exists i'. split; [now right|]. split; [exact Hn|].
    eapply connects_ext; [apply E | exact C].
Qed.
Lemma sourced_incl infos infos' l : incl infos infos' -> sourced infos l -> sourced infos' l.
Proof. intros H S K n h F. destruct (S K n h F) as (i & Hi & R). eauto. Qed.

Lemma after_sourced infos : forall done l, inv l -> sourced done l -> sourced (done ++ infos) (after A infos l).
Proof.
  induction infos as [|i infos IH]; intros done l I S; cbn; [now rewrite app_nil_r|].
  destruct (load_info_spec i l I) as (l' & o & ks & E & EN & _). rewrite E. cbn [fst].
  pose proof (sourced_step _ _ _ _ _ S EN) as S'.
  specialize (IH (i :: done) l' (ent_inv _ _ _ _ EN) S'). eapply sourced_incl; [|exact IH].
  intros x [<-|Hx]; [apply in_or_app; right; now left|]. apply in_or_app. apply in_app_or in Hx. destruct Hx; [auto | right; now right].
Qed.

Lemma new_sourced act_state act_cmd next : sourced [] (new_loader A act_state act_cmd next).
Proof. intros K n h H. destruct K; discriminate. Qed.

Lemma registered_mine K n h l : inv l -> registered A K n h l <-> sfind n (s_mine (iface A K l)) = Some h.
Proof.
  intros I. unfold registered. split.
  - intros (m & G & F). rewrite bare_get in G by apply I. destruct (s_on _); [|discriminate]. injection G as <-. exact F.
  - intros F. exists (s_mine (iface A K l)). split; [|exact F]. eapply bare_find; eauto. apply I.
Qed.

(** ** Lists *)

Lemma load_infos_prefix infos : forall l l' o, load_infos A infos l = (l', o) ->
  (o = Returned true /\ l' = after A infos l) \/
  exists pre i post, infos = pre ++ i :: post /\ load_infos A pre l = (after A pre l, Returned true) /\
    load_info A i (after A pre l) = (l', o) /\ o <> Returned true.
Proof.
  induction infos as [|i infos IH]; intros l l' o E; cbn [load_infos] in E.
  - injection E as <- <-. now left.
  - destruct (load_info A i l) as [l1 o1] eqn:E1.
    assert (D : o1 = Returned true \/ o1 <> Returned true) by (destruct o1 as [[|]| | |]; auto; right; discriminate).
    destruct D as [->|N].
    + destruct (IH _ _ _ E) as [(-> & ->)|(pre & i' & post & -> & H1 & H2 & H3)].
      * left. split; [reflexivity|]. cbn. now rewrite E1.
      * right. exists (i :: pre), i', post. cbn. rewrite E1. auto.
    + right. exists [], i, infos. split; [reflexivity|]. split; [reflexivity|]. cbn. split.
      * destruct o1 as [[|]| | |]; congruence.
      * destruct o1 as [[|]| | |]; congruence.
Qed.

(** ** When loading succeeds *)

Lemma remove_one_spec x l : match remove_one x l with Some r => Permutation l (x :: r) | None => ~ In x l end.
Proof.
  induction l as [|y l IH]; cbn; [easy|]. destruct (String.eqb_spec x y) as [->|N]; [reflexivity|].
  destruct (remove_one x l) as [r|].
  - rewrite IH. constructor.
  - intros [H|H]; [congruence | contradiction].
Qed.
Lemma is_permutation_spec l : forall l', List.length l = List.length l' -> is_permutation l l' = true <-> Permutation l l'.
Proof.
  induction l as [|x l IH]; intros l' L; cbn.
  - destruct l'; [|discriminate]. split; auto.
  - pose proof (remove_one_spec x l') as R. destruct (remove_one x l') as [r|].
    + pose proof (Permutation_length R) as L'. cbn in L, L'. rewrite IH by lia. split; intros H.
      * rewrite R. now constructor.
      * apply Permutation_cons_inv with x. now rewrite H.
    + split; [discriminate|]. intros H. destruct R. eapply Permutation_in; [exact H|]. now left.
Qed.
Lemma same_interfaces_spec ref js : same_interfaces ref js = true <-> forall j, In j js -> Permutation ref (ji_ifaces j).
Proof.
  unfold same_interfaces. rewrite forallb_forall. split; intros H j Hj; specialize (H j Hj).
  - apply andb_prop in H. destruct H as [L P]. apply Nat.eqb_eq in L. now apply is_permutation_spec.
  - pose proof (Permutation_length H) as L. rewrite L, Nat.eqb_refl. cbn. apply is_permutation_spec; auto.
Qed.

Lemma load_info_iff i l : inv l -> complete i ->
  snd (load_info A i l) = Returned true <->
  (exists t, load_transmission A i = Got t) /\ (forall j, In j (ti_joints i) -> Permutation (interfaces i) (ji_ifaces j)) /\
  exists hw, In hw (interfaces i) /\ served A i l hw.
Proof.
  intros I (C1 & C2). unfold load_info, interfaces. destruct (load_transmission A i) as [t| |] eqn:HT; cbn.
  2,3: split; [discriminate | intros ((t & H) & _); discriminate].
  destruct (ti_joints i) as [|j js]; [now destruct C1|].
  pose proof (C2 j (or_introl eq_refl)) as NE.
  pose proof (same_interfaces_spec (ji_ifaces j) (j :: js)) as SI.
  destruct (load_ifaces_spec (ji_ifaces j) i t false l I HT) as (l' & b' & ks & E & _ & B & _).
  destruct (ji_ifaces j) as [|hw hws]; [now destruct NE|].
  destruct (same_interfaces (hw :: hws) (j :: js)).
  - rewrite E. cbn. split.
    + intros [= ->]. split; [eauto|]. split; [now apply SI|]. destruct (proj1 B eq_refl) as [|H]; [discriminate | exact H].
    + intros (_ & _ & H). f_equal. apply B. auto.
  - cbn. split; [discriminate|]. intros (_ & H & _). apply SI in H. discriminate.
Qed.

(** ** Undefined behaviour *)

Lemma get_number_undef tag req old n : get_number A tag req old n = Undef -> exists e, first_child tag n = Some e /\ get_text e = None.
Proof.
  unfold get_number. destruct (first_child tag n) as [e|]; [|destruct req; discriminate].
  destruct (get_text e) as [s|] eqn:E; [|eauto]. destruct (stod A s); discriminate.
Qed.
Lemma by_role_in r1 r2 e0 e1 es : by_role r1 r2 e0 e1 = Got es -> (es = (e0, e1) \/ es = (e1, e0)).
Proof.
  unfold by_role. destruct (get_role e0); cbn; try discriminate. destruct (negb _); [discriminate|].
  destruct (get_role e1); cbn; try discriminate. destruct (negb _); [discriminate|]. destruct (_ =? _)%string; [discriminate|].
  destruct (_ =? _)%string; intros [= <-]; auto.
Qed.
Lemma by_role_def r1 r2 e0 e1 : by_role r1 r2 e0 e1 <> Undef.
Proof.
  unfold by_role. pose proof (get_role_def e0). pose proof (get_role_def e1).
  destruct (get_role e0); cbn; try congruence. destruct (negb _); [discriminate|].
  destruct (get_role e1); cbn; try congruence. destruct (negb _); [discriminate|]. destruct (_ =? _)%string; [discriminate|].
  destruct (_ =? _)%string; discriminate.
Qed.
Lemma actuator_config_undef e0 e1 : actuator_config A e0 e1 = Undef ->
  exists n e, In n [e0; e1] /\ first_child "mechanicalReduction" n = Some e /\ get_text e = None.
Proof.
  unfold actuator_config. pose proof (by_role_def "actuator1" "actuator2" e0 e1) as D.
  destruct (by_role _ _ e0 e1) as [es| |] eqn:R; cbn; try congruence.
  assert (IN : In (fst es) [e0; e1] /\ In (snd es) [e0; e1]) by (apply by_role_in in R; destruct R as [-> | ->]; cbn; auto).
  destruct (get_number A _ _ _ (fst es)) eqn:N; cbn; try congruence.
  - destruct (get_number A _ _ _ (snd es)) eqn:N'; cbn; try congruence. intros _. apply get_number_undef in N'. destruct N' as (e & H). exists (snd es), e. tauto.
  - intros _. apply get_number_undef in N. destruct N as (e & H). exists (fst es), e. tauto.
Qed.
Lemma joint_config_undef e0 e1 : joint_config A e0 e1 = Undef ->
  exists n tag e, In n [e0; e1] /\ (tag = "mechanicalReduction" \/ tag = "offset") /\ first_child tag n = Some e /\ get_text e = None.
Proof.
  unfold joint_config. pose proof (by_role_def "joint1" "joint2" e0 e1) as D.
  destruct (by_role _ _ e0 e1) as [es| |] eqn:R; cbn; try congruence.
  assert (IN : In (fst es) [e0; e1] /\ In (snd es) [e0; e1]) by (apply by_role_in in R; destruct R as [-> | ->]; cbn; auto).
  destruct IN as [IN1 IN2].
  destruct (get_number A "mechanicalReduction" _ _ (fst es)) eqn:N1; cbn; try congruence.
  2:{ intros _. apply get_number_undef in N1. destruct N1 as (e & H). exists (fst es), "mechanicalReduction", e. tauto. }
  destruct (get_number A "offset" _ _ (fst es)) eqn:N2; cbn; try congruence.
  2:{ intros _. apply get_number_undef in N2. destruct N2 as (e & H). exists (fst es), "offset", e. tauto. }
  destruct (get_number A "mechanicalReduction" _ _ (snd es)) eqn:N3; cbn; try congruence.
  2:{ intros _. apply get_number_undef in N3. destruct N3 as (e & H). exists (snd es), "mechanicalReduction", e. tauto. }
  destruct (get_number A "offset" _ _ (snd es)) eqn:N4; cbn; try congruence.
  intros _. apply get_number_undef in N4. destruct N4 as (e & H). exists (snd es), "offset", e. tauto.
Qed.
Lemma undefined_textless i : load_transmission A i = Undef -> textless i.
Proof.
  assert (TWO : forall a0 a1 j0 j1 (f : list (num A) -> list (num A) * list (num A) -> got (transmission A)),
    (forall x y, f x y <> Undef) -> ti_actuators i = [a0; a1] -> ti_joints i = [j0; j1] ->
    gbind (actuator_config A (ai_xml a0) (ai_xml a1)) (fun ar => gbind (joint_config A (ji_xml j0) (ji_xml j1)) (fun jc => f ar jc)) = Undef ->
    textless i).
  { intros a0 a1 j0 j1 f Hf EA EJ. unfold textless. rewrite EA, EJ. cbn [map app].
    destruct (actuator_config A _ _) as [ar| |] eqn:CA; cbn; try discriminate.
    - destruct (joint_config A _ _) as [jc| |] eqn:CJ; cbn; try discriminate.
      + intros H. now apply Hf in H.
      + intros _. apply joint_config_undef in CJ. destruct CJ as (n & tag & e & IN & H). exists n, tag, e. split; [cbn in *; tauto | exact H].
    - intros _. apply actuator_config_undef in CA. destruct CA as (n & e & IN & H). exists n, "mechanicalReduction", e. split; [cbn in *; tauto | tauto]. }
  unfold load_transmission. destruct (_ =? _)%string; [|destruct (_ =? _)%string; [|destruct (_ =? _)%string; [|discriminate]]].
  - unfold load_simple, textless. destruct (ti_actuators i) as [|a [|]] eqn:EA; try discriminate.
    destruct (ti_joints i) as [|j [|]] eqn:EJ; try discriminate. cbn [map app].
    destruct (get_number A _ _ _ (ai_xml a)) eqn:N1; cbn; try discriminate.
    2:{ intros _. apply get_number_undef in N1. destruct N1 as (e & H). exists (ai_xml a), "mechanicalReduction", e. tauto. }
    destruct (get_number A _ _ _ (ji_xml j)) eqn:N2; cbn; try discriminate.
    2:{ intros _. apply get_number_undef in N2. destruct N2 as (e & H). exists (ji_xml j), "offset", e. tauto. }
    destruct (make_simple A _ _); discriminate.
  - unfold load_differential. destruct (ti_actuators i) as [|a0 [|a1 [|]]] eqn:EA; try discriminate.
    destruct (ti_joints i) as [|j0 [|j1 [|]]] eqn:EJ; try discriminate.
    apply (TWO a0 a1 j0 j1 (fun ar jc => match make_differential A ar (fst jc) (snd jc) (ignore_absolute (ji_xml j0) (ji_xml j1)) with None => Failed | Some t => Got t end)); auto.
    intros x y. destruct (make_differential A _ _ _ _); discriminate.
  - unfold load_four_bar. destruct (ti_actuators i) as [|a0 [|a1 [|]]] eqn:EA; try discriminate.
    destruct (ti_joints i) as [|j0 [|j1 [|]]] eqn:EJ; try discriminate.
    apply (TWO a0 a1 j0 j1 (fun ar jc => match make_four_bar A ar (fst jc) (snd jc) with None => Failed | Some t => Got t end)); auto.
    intros x y. destruct (make_four_bar A _ _ _); discriminate.
Qed.
Lemma load_info_undef i l : inv l -> snd (load_info A i l) = Undefined -> load_transmission A i = Undef.
Proof.
  intros I. unfold load_info. destruct (load_transmission A i) as [t| |] eqn:HT; try (cbn; congruence).
  destruct (ti_joints i) as [|j js]; [discriminate|].
  destruct (load_ifaces_spec (ji_ifaces j) i t false l I HT) as (l' & b' & ks & E & _).
  destruct (ji_ifaces j); [discriminate|]. destruct (same_interfaces _ _); [|discriminate]. rewrite E. discriminate.
Qed.

(** ** A list of transmissions with different names *)

Lemma load_infos_ok infos : forall l done, inv l ->
  (forall K n h, sfind n (s_mine (iface A K l)) = Some h -> In n (map ti_name done)) ->
  NoDup (map ti_name (done ++ infos)) ->
  forall l', load_infos A infos l = (l', Returned true) ->
  inv l' /\ ext l l' /\
  (forall K n, ~ In n (map ti_name infos) -> sfind n (s_mine (iface A K l')) = sfind n (s_mine (iface A K l))) /\
  (forall i, In i infos -> (exists t, load_transmission A i = Got t) /\ (exists hw, In hw (interfaces i) /\ served A i l hw) /\
     forall K, (exists hw, In hw (interfaces i) /\ served A i l hw /\ In K (asks hw)) <-> exists h, sfind (ti_name i) (s_mine (iface A K l')) = Some h) /\
  (forall i K h, In i infos -> sfind (ti_name i) (s_mine (iface A K l')) = Some h -> connects A K i l' h).
Proof.
  induction infos as [|i infos IH]; intros l done I D ND l' E; cbn [load_infos] in E.
  - injection E as <-. split; [exact I|]. split; [apply ext_refl|]. split; [reflexivity|]. split; easy.
  - destruct (load_info_spec i l I) as (l1 & o & ks & E1 & EN & _ & _ & _ & OK). rewrite E1 in E.
    destruct o as [[|]| | |]; try discriminate E. destruct (OK eq_refl) as (HT & HS & HW & HK).
    assert (FRESH : ~ In (ti_name i) (map ti_name done) /\ ~ In (ti_name i) (map ti_name infos)).
    { rewrite map_app in ND. cbn in ND. pose proof (NoDup_remove_2 _ _ _ ND) as N. split; intros H; apply N, in_or_app; auto. }
    assert (D1 : forall K n h, sfind n (s_mine (iface A K l1)) = Some h -> In n (map ti_name (done ++ [i]))).
    { intros K n h H. rewrite map_app. apply in_or_app. destruct (string_dec n (ti_name i)) as [->|N]; [right; now left|].
      left. rewrite (ent_other _ _ _ _ EN K n N) in H. eauto. }
    destruct (IH l1 (done ++ [i]) (ent_inv _ _ _ _ EN) D1) with (l' := l') as (I' & X' & OT & AL & CO); auto.
    { rewrite <- app_assoc. exact ND. }
    pose proof (ent_ext _ _ _ _ EN) as X1.
    assert (SX : forall i w, served A i l1 w <-> served A i l w).
    { intros i' w. unfold served. split; intros (H1 & H2); (split; [exact H1|]); intros K HK'; apply (on_robot_ext K i' l l1 X1); auto. }
    split; [exact I'|]. split; [eapply ext_trans; eauto|]. split; [|split].
    + intros K n N. cbn in N. rewrite OT by tauto. apply EN. intros ->. tauto.
    + intros i' [<-|Hi].
      * split; [exact HT|]. split; [exact HW|]. intros K. rewrite <- HK. rewrite OT by tauto. split; [apply EN|].
        intros (h & Hh). destruct (in_dec hkind_dec K ks) as [|N]; [assumption|]. exfalso.
        rewrite (ent_kind _ _ _ _ EN K N) in Hh. apply D in Hh. tauto.
      * destruct (AL i' Hi) as (H1 & H2 & H3). split; [exact H1|]. split.
        -- destruct H2 as (hw & Hw & S). exists hw. split; [exact Hw|]. now apply SX.
        -- intros K. rewrite <- (H3 K). split; intros (hw & Hw & S & HK'); exists hw; (split; [exact Hw|]); (split; [now apply SX | exact HK']).
    + intros i' K h [<-|Hi] H; [|now apply CO].
      rewrite OT in H by tauto. destruct (ent_new _ _ _ _ EN K h H) as [C|H']; [eapply connects_ext; eauto|].
      apply D in H'. tauto.
Qed.

End Load.
