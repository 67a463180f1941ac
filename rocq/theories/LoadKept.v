(** Proofs about what a loader keeps: the transmissions, and the flags of its raw joint data. *)
From Coq Require Import Permutation Lia.
From Verif Require Import SMapProofs TransSpec TransProofs TransHandle LoadModel LoadSpec ParseProofs LoadProofs LoadMain LoadSep LoadVars.
Local Open Scope string_scope.
Local Open Scope list_scope.
Local Open Scope nat_scope.

Section Kept.
Context (A : larith).
Notation loader := (loader A).
Notation kept := (l_transmissions A).

Lemma raw_at_kept n l : kept (snd (raw_at A n l)) = kept l.
Proof. unfold raw_at. destruct (sfind _ _); reflexivity. Qed.
Lemma update_states_kept js : forall l, kept (update_states A js l) = kept l.
Proof.
  induction js as [|j js IH]; intros l; cbn [update_states]; [reflexivity|]. destruct (s_has _ _); [apply IH|].
  pose proof (raw_at_kept (ji_name j) l) as H. destruct (raw_at A (ji_name j) l) as [r l1]. rewrite IH. exact H.
Qed.
Lemma update_joint_states_kept i l : kept (update_joint_states A i l) = kept l.
Proof. unfold update_joint_states. now rewrite update_states_kept. Qed.
Lemma update_commands_kept k js : forall l, kept (fst (update_commands A k js l)) = kept l.
Proof.
  induction js as [|j js IH]; intros l; cbn [update_commands]; [reflexivity|]. destruct (s_has _ _); [apply IH|].
  pose proof (raw_at_kept (ji_name j) l) as H. destruct (raw_at A (ji_name j) l) as [r l1].
  destruct (sfind _ _); [rewrite IH; exact H | exact H].
Qed.
Lemma update_joint_commands_kept k i l : kept (fst (update_joint_commands A k i l)) = kept l.
Proof. unfold update_joint_commands. rewrite update_commands_kept. exact (update_joint_states_kept i l). Qed.
Lemma register_state_kept d l : kept (fst (register_state A d l)) = kept l.
Proof. unfold register_state. destruct (make_handle _ _ _ _ _); reflexivity. Qed.
Lemma register_command_kept k d l : kept (fst (register_command A k d l)) = kept l.
Proof.
  unfold register_command. pose proof (register_state_kept d l) as H.
  destruct (has_resource _ _); [|destruct (register_state A d l) as [l1 ok]; cbn in H; destruct ok; [|exact H]];
    destruct (make_handle _ _ _ _ _); try exact H; reflexivity.
Qed.
Lemma register_both_kept k d l : kept (fst (register_both A k d l)) = kept l.
Proof.
  unfold register_both. pose proof (register_command_kept k d l) as H. destruct (register_command A k d l) as [l1 ok]; cbn in H.
  destruct ok; [|exact H]. cbn [negb].
  destruct (has_resource _ _); [destruct (make_handle _ _ _ _ _); exact H|].
  destruct (make_handle A _ _ (hd_act_state A d) _); [|exact H]. cbn [negb]. destruct (make_handle A _ _ (hd_act_cmd A d) _); exact H.
Qed.

Lemma load_maps_kept p i t l : let '(l', o) := load_maps A p i t l in
  match o with Returned true => kept l' = kept l ++ [t] | Returned false => kept l' = kept l | _ => True end.
Proof.
  unfold load_maps. destruct (actuator_state_data A i l) as [act|]; [|reflexivity].
  destruct (match commanded p with None => _ | Some k => _ end) as [cmd|]; [|reflexivity].
  assert (U : kept (fst (match commanded p with None => (update_joint_states A i l, true) | Some k => update_joint_commands A k i l end)) = kept l).
  { destruct (commanded p); [apply update_joint_commands_kept | exact (update_joint_states_kept i l)]. }
  destruct (match commanded p with None => (update_joint_states A i l, true) | Some k => update_joint_commands A k i l end) as [l1 ok].
  cbn in U. destruct ok; cbn [negb]; [|exact Logic.I].
  destruct (joint_state_data A i l1) as [js|]; [|exact U].
  destruct (match commanded p with None => Some no_data | Some k => joint_command_data A k i l1 end) as [jc|]; [|exact U].
  set (d := mkHData A (ti_name i) t act cmd js jc). set (l2 := add_transmission A t l1).
  assert (E2 : kept l2 = kept l ++ [t]) by (unfold l2; cbn; now rewrite U).
  assert (R : kept (fst (match p with StateProvider => register_state A d l2 | CommandProvider k => register_command A k d l2 | BothProvider k => register_both A k d l2 end)) = kept l2).
  { destruct p; [apply register_state_kept | apply register_command_kept | apply register_both_kept]. }
  destruct (match p with StateProvider => register_state A d l2 | CommandProvider k => register_command A k d l2 | BothProvider k => register_both A k d l2 end) as [l3 ok].
  cbn in R. destruct ok; [congruence | exact Logic.I].
Qed.

Lemma served_ext i l l' w : ext A l l' -> served A i l' w <-> served A i l w.
Proof. intros X. unfold served. split; intros (H1 & H2); (split; [exact H1|]); intros K HK; apply (on_robot_ext A K i l l' X); auto. Qed.

Lemma load_ifaces_kept hws : forall i t b l f, inv A l -> load_transmission A i = Got t ->
  (forall hw, f hw = true <-> served A i l hw) ->
  kept (fst (load_ifaces A hws i t b l)) = kept l ++ repeat t (List.length (filter f hws)).
Proof.
  induction hws as [|hw hws IH]; intros i t b l f I HT F; cbn [load_ifaces filter]; [now rewrite app_nil_r|].
  pose proof (provider_asks hw) as PA. destruct (provider_of hw) as [p|].
  - pose proof (load_maps_kept p i t l) as KM.
    destruct (load_maps_spec A p i t l I HT) as (l1 & o & E & [(-> & -> & N)|(-> & ON & EN)]); rewrite E in *.
    + assert (FF : f hw = false) by (apply Bool.not_true_is_false; rewrite F; intros (_ & H); rewrite PA in H; auto).
      rewrite FF. now apply IH.
    + assert (FT : f hw = true) by (apply F; split; rewrite PA; [apply kinds_nonempty | exact ON]).
      rewrite FT. cbn [List.length repeat].
      rewrite (IH i t (b || true) l1 f (ent_inv _ _ _ _ _ EN) HT).
      * rewrite KM, <- app_assoc. reflexivity.
      * intros w. rewrite F. symmetry. apply served_ext, EN.
  - assert (FF : f hw = false) by (apply Bool.not_true_is_false; rewrite F; intros (H & _); contradiction).
    rewrite FF. now apply IH.
Qed.

Lemma load_info_kept i l l' f : inv A l -> load_info A i l = (l', Returned true) -> (forall hw, f hw = true <-> served A i l hw) ->
  exists t, load_transmission A i = Got t /\ kept l' = kept l ++ repeat t (List.length (filter f (interfaces i))).
Proof.
  intros I E F. unfold load_info, interfaces in *. destruct (load_transmission A i) as [t| |] eqn:HT; try discriminate E.
  destruct (ti_joints i) as [|j js]; [discriminate E|]. destruct (ji_ifaces j) as [|hw hws]; [discriminate E|].
  destruct (same_interfaces _ _); [|discriminate E]. exists t. split; [reflexivity|].
  rewrite <- (load_ifaces_kept (hw :: hws) i t false l f I HT F). now rewrite E.
Qed.

(** Whether a hardware interface is served can be decided. *)
Lemma entries_dec {T} names (m : smap T) : {exists xs, entries names m xs} + {~ exists xs, entries names m xs}.
Proof.
  induction names as [|n names IH]; [left; exists []; constructor|].
  destruct (sfind n m) as [x|] eqn:E.
  - destruct IH as [H|H]; [left; destruct H as (xs & H); exists (x :: xs); now constructor | right; intros (xs & H'); inversion H'; subst; eauto].
  - right. intros (xs & H). inversion H; subst. congruence.
Qed.
Lemma on_robot_dec K i l : {on_robot A K i l} + {~ on_robot A K i l}.
Proof.
  unfold on_robot. assert (D : forall T (o : option (smap T)), {exists m xs, o = Some m /\ entries (map ai_name (ti_actuators i)) m xs} + {~ exists m xs, o = Some m /\ entries (map ai_name (ti_actuators i)) m xs}).
  { intros T [m|]; [|right; intros (m & xs & E & _); discriminate]. destruct (entries_dec (map ai_name (ti_actuators i)) m) as [H|H].
    - left. destruct H as (xs & H). eauto.
    - right. intros (m' & xs & [= <-] & H'). eauto. }
  destruct (D _ (l_act_state A l)) as [H|H]; [|right; tauto]. destruct (commands K) as [k|]; [|left; tauto].
  destruct (D _ (tget k (l_act_cmd A l))) as [H'|H']; [left | right]; tauto.
Qed.
Lemma served_dec i l hw : {served A i l hw} + {~ served A i l hw}.
Proof.
  unfold served. destruct (asks hw) as [|K Ks] eqn:E; [right; tauto|].
  destruct (Forall_dec (fun K => on_robot A K i l) (fun K => on_robot_dec K i l) (K :: Ks)) as [H|H]; rewrite Forall_forall in H.
  - left. split; [discriminate | exact H].
  - right. tauto.
Qed.

Lemma load_info_kept_all i l : inv A l -> exists more, kept (fst (load_info A i l)) = kept l ++ more /\
  forall K n h, sfind n (s_mine (iface A K (fst (load_info A i l)))) = Some h ->
    sfind n (s_mine (iface A K l)) = Some h \/ In (h_trans A h) more.
Proof.
  intros I. destruct (load_info_spec A i l I) as (l' & o & ks & E & EN & _ & U & _ & S). rewrite E. cbn [fst].
  assert (D : o = Returned true \/ o <> Returned true) by (destruct o as [[|]| | |]; auto; right; discriminate).
  destruct D as [-> | N].
  - set (f := fun hw => if served_dec i l hw then true else false).
    assert (F : forall hw, f hw = true <-> served A i l hw) by (intros hw; unfold f; destruct (served_dec i l hw); split; auto; discriminate).
    destruct (load_info_kept i l l' f I E F) as (t & HT & KT). eexists. split; [exact KT|].
    intros K n h Hh. destruct (string_dec n (ti_name i)) as [->|Nn].
    + destruct (ent_new _ _ _ _ _ EN K h Hh) as [C|H']; [right|auto].
      destruct C as (_ & C & _). apply described_iff in C. rewrite HT in C. injection C as <-.
      destruct (S eq_refl) as (_ & _ & (hw & Hw & SV) & _).
      assert (L : List.length (filter f (interfaces i)) <> 0).
      { assert (Z : In hw (filter f (interfaces i))) by (apply filter_In; split; [exact Hw | now apply F]). destruct (filter f (interfaces i)); [destruct Z | discriminate]. }
      destruct (List.length (filter f (interfaces i))); [contradiction | left; reflexivity].
    + rewrite (ent_other _ _ _ _ _ EN K n Nn) in Hh. auto.
  - destruct (U N) as (-> & _). exists []. split; [now rewrite app_nil_r | auto].
Qed.

Lemma after_kept infos : forall l, inv A l ->
  (forall K n h, sfind n (s_mine (iface A K l)) = Some h -> In (h_trans A h) (kept l)) ->
  forall K n h, sfind n (s_mine (iface A K (after A infos l))) = Some h -> In (h_trans A h) (kept (after A infos l)).
Proof.
  induction infos as [|i infos IH]; intros l I H; [exact H|]. cbn [after fold_left]. fold (after A infos (fst (load_info A i l))).
  apply IH; [apply load_info_inv, I|]. destruct (load_info_kept_all i l I) as (more & E & M). intros K n h Hh. rewrite E. apply in_or_app.
  destruct (M K n h Hh) as [H'|H']; [left; eauto | auto].
Qed.
Lemma after_kept_grows infos : forall l, inv A l -> exists more, kept (after A infos l) = kept l ++ more.
Proof.
  induction infos as [|i infos IH]; intros l I; [exists []; now rewrite app_nil_r|]. cbn [after fold_left]. fold (after A infos (fst (load_info A i l))).
  destruct (load_info_kept_all i l I) as (more & E & _). destruct (IH (fst (load_info A i l))) as (more' & E'); [apply load_info_inv, I|].
  exists (more ++ more'). now rewrite E', E, app_assoc.
Qed.

(** ** The flags *)

Lemma state_handle_flagged r : flagged r (state_handle r).
Proof. unfold state_handle, flagged. destruct (rj_has_abs r), (rj_has_tor r); cbn; repeat split; intros; congruence. Qed.

Lemma s_put_get {H} n (x : H) s m : s_get s = Some m -> s_get (s_put n x s) = Some (sset n x m).
Proof. unfold s_get, s_put. destruct (s_theirs s); cbn; [intros [= ->]; reflexivity|]. destruct (s_on s); [intros [= ->]; reflexivity | discriminate]. Qed.
Lemma s_ensure_get {H} (s : slot H) : exists m, s_get (s_ensure s) = Some m /\ (forall m0, s_get s = Some m0 -> m = m0) /\ (s_get s = None -> m = s_mine s).
Proof.
  unfold s_ensure. destruct (s_get s) as [m|] eqn:E.
  - exists m. split; [exact E|]. split; [intros m0; congruence | discriminate].
  - exists (s_mine s). split; [|split; [discriminate | reflexivity]]. unfold s_get in *. cbn. destruct (s_theirs s); [discriminate | reflexivity].
Qed.

Lemma raw_at_find n l : sfind n (l_raw A (snd (raw_at A n l))) = Some (fst (raw_at A n l)) /\
  (forall n' r, sfind n' (l_raw A l) = Some r -> sfind n' (l_raw A (snd (raw_at A n l))) = Some r) /\ l_jnt_state A (snd (raw_at A n l)) = l_jnt_state A l.
Proof.
  unfold raw_at. destruct (sfind n (l_raw A l)) as [r|] eqn:E; cbn; [auto|]. rewrite sfind_sset, String.eqb_refl. split; [reflexivity|]. split; [|reflexivity].
  intros n' r' F. rewrite sfind_sset. destruct (String.eqb_spec n' n) as [->|]; [congruence | exact F].
Qed.
(** Whatever the robot has and whatever the user made of the raw joint data. *)
Lemma update_states_flags joints : forall l m0, s_get (l_jnt_state A l) = Some m0 ->
  let l' := update_states A joints l in
  (forall n r, sfind n (l_raw A l) = Some r -> sfind n (l_raw A l') = Some r) /\
  exists m, s_get (l_jnt_state A l') = Some m /\
  (forall n x, sfind n m0 = Some x -> sfind n m = Some x) /\
  (forall n, sfind n m0 = None -> In n (map ji_name joints) -> exists r x, sfind n (l_raw A l') = Some r /\ sfind n m = Some x /\ flagged r x) /\
  (forall n, sfind n m0 = None -> ~ In n (map ji_name joints) -> sfind n m = None).
Proof.
  induction joints as [|j joints IH]; intros l m0 G; cbn [update_states].
  - split; [auto|]. exists m0. repeat split; auto. intros n _ [].
  - unfold s_has. rewrite G. unfold has_resource. destruct (sfind (ji_name j) m0) as [x0|] eqn:E.
    + destruct (IH l m0 G) as (R & m & G' & K & Nw & Ot). split; [exact R|]. exists m. split; [exact G'|]. split; [exact K|]. split.
      * intros n F [<-|H]; [congruence | auto].
      * intros n F H. apply Ot; [exact F|]. intros H'. apply H. now right.
    + pose proof (raw_at_find (ji_name j) l) as (F1 & F2 & F3). destruct (raw_at A (ji_name j) l) as [r l1]. cbn [fst snd] in F1, F2, F3.
      set (l2 := set_jnt_state A (s_put (ji_name j) (state_handle r) (l_jnt_state A l1)) l1).
      assert (G2 : s_get (l_jnt_state A l2) = Some (sset (ji_name j) (state_handle r) m0)) by (cbn; rewrite F3; now apply s_put_get).
      destruct (IH l2 _ G2) as (R & m & G' & K & Nw & Ot). split; [intros n r' F; apply R; cbn; auto|]. exists m. split; [exact G'|]. split; [|split].
      * intros n x F. apply K. rewrite sfind_sset. destruct (String.eqb_spec n (ji_name j)) as [->|]; [congruence | exact F].
      * intros n F H. destruct (string_dec n (ji_name j)) as [->|Nn].
        -- exists r, (state_handle r). split; [apply R; exact F1|]. split; [|apply state_handle_flagged]. apply K. now rewrite sfind_sset, String.eqb_refl.
        -- destruct H as [H|H]; [congruence|]. apply Nw; [|exact H]. rewrite sfind_sset. destruct (String.eqb_spec n (ji_name j)); [contradiction | exact F].
      * intros n F H. apply Ot; [|intros H'; apply H; now right]. rewrite sfind_sset. destruct (String.eqb_spec n (ji_name j)) as [->|]; [destruct H; now left | exact F].
Qed.
Lemma update_joint_states_flags i l : exists m m0, s_get (l_jnt_state A (update_joint_states A i l)) = Some m /\
  ((forall m1, s_get (l_jnt_state A l) = Some m1 -> m0 = m1) /\ (s_get (l_jnt_state A l) = None -> m0 = s_mine (l_jnt_state A l))) /\
  (forall n r, sfind n (l_raw A l) = Some r -> sfind n (l_raw A (update_joint_states A i l)) = Some r) /\
  (forall n x, sfind n m0 = Some x -> sfind n m = Some x) /\
  (forall n, sfind n m0 = None -> In n (map ji_name (ti_joints i)) ->
     exists r x, sfind n (l_raw A (update_joint_states A i l)) = Some r /\ sfind n m = Some x /\ flagged r x) /\
  (forall n, sfind n m0 = None -> ~ In n (map ji_name (ti_joints i)) -> sfind n m = None).
Proof.
  unfold update_joint_states. destruct (s_ensure_get (l_jnt_state A l)) as (m0 & G & S).
  destruct (update_states_flags (ti_joints i) (set_jnt_state A (s_ensure (l_jnt_state A l)) l) m0 G) as (R & m & G' & K & Nw & Ot).
  exists m, m0. auto 10.
Qed.

(** What a step does to the joint states and to the raw joint data. *)
Notation idle l := (s_get (l_jnt_state A l) = None -> s_mine (l_jnt_state A l) = []).
Definition flag_step (l l' : loader) : Prop :=
  (forall n r, sfind n (l_raw A l) = Some r -> sfind n (l_raw A l') = Some r) /\
  (idle l -> idle l' /\
   (forall n x, joint_shown A l n x -> joint_shown A l' n x) /\
   forall n x, joint_shown A l' n x -> joint_shown A l n x \/ exists r, sfind n (l_raw A l') = Some r /\ flagged r x).
Lemma flag_step_trans l l' l'' : flag_step l l' -> flag_step l' l'' -> flag_step l l''.
Proof.
  intros (R & S) (R' & S'). split; [auto|]. intros I. destruct (S I) as (I1 & K & N). destruct (S' I1) as (I2 & K' & N').
  split; [exact I2|]. split; [auto|]. intros n x H. destruct (N' n x H) as [H1|H1]; [|auto].
  destruct (N n x H1) as [H2|(r & F & FL)]; [auto|]. right. exists r. auto.
Qed.
Lemma flag_step_same l l' : (forall n r, sfind n (l_raw A l) = Some r -> sfind n (l_raw A l') = Some r) ->
  l_jnt_state A l' = l_jnt_state A l -> flag_step l l'.
Proof. intros R E. split; [exact R|]. unfold joint_shown. rewrite E. auto. Qed.
Lemma flag_step_joints l l' : same_joints A l l' -> flag_step l l'.
Proof. intros (E1 & E2 & E3). apply flag_step_same; [|congruence]. intros n r. congruence. Qed.

Lemma update_joint_states_step i l : flag_step l (update_joint_states A i l).
Proof.
  destruct (update_joint_states_flags i l) as (m & m0 & G & (S & S') & R & K & Nw & Ot). split; [exact R|]. intros I.
  split; [intros Z; congruence|]. split.
  - intros n x (m1 & G1 & F). exists m. split; [exact G|]. apply K. now rewrite (S m1 G1).
  - intros n x (m1 & G1 & F). rewrite G in G1. injection G1 as <-.
    destruct (sfind n m0) as [y|] eqn:E0.
    + left. rewrite (K n y E0) in F. injection F as <-. destruct (s_get (l_jnt_state A l)) as [m2|] eqn:E2; [exists m2; split; [exact E2 | now rewrite <- (S m2 eq_refl)]|].
      rewrite (S' eq_refl), (I eq_refl) in E0. discriminate E0.
    + right. destruct (in_dec string_dec n (map ji_name (ti_joints i))) as [H|H].
      * destruct (Nw n E0 H) as (r & x' & Fr & F' & FL). exists r. split; [exact Fr|]. congruence.
      * rewrite (Ot n E0 H) in F. discriminate F.
Qed.
Lemma update_commands_step k joints : forall l, flag_step l (fst (update_commands A k joints l)).
Proof.
  induction joints as [|j joints IH]; intros l; cbn [update_commands]; [now apply flag_step_same|]. destruct (s_has _ _); [apply IH|].
  pose proof (raw_at_find (ji_name j) l) as (_ & F2 & F3). destruct (raw_at A (ji_name j) l) as [r l1]. cbn [fst snd] in F2, F3.
  destruct (sfind (ji_name j) (s_mine (l_jnt_state A l1))) as [x|]; [|now apply flag_step_same].
  eapply flag_step_trans; [|apply IH]. now apply flag_step_same.
Qed.
Lemma load_maps_step p i t l : flag_step l (fst (load_maps A p i t l)).
Proof.
  unfold load_maps. destruct (actuator_state_data A i l) as [act|]; [|now apply flag_step_same].
  destruct (match commanded p with None => _ | Some k => _ end) as [cmd|]; [|now apply flag_step_same].
  assert (U : flag_step l (fst (match commanded p with None => (update_joint_states A i l, true) | Some k => update_joint_commands A k i l end))).
  { destruct (commanded p) as [k|]; [|exact (update_joint_states_step i l)]. unfold update_joint_commands.
    eapply flag_step_trans; [exact (update_joint_states_step i l)|]. eapply flag_step_trans; [|apply update_commands_step]. now apply flag_step_same. }
  destruct (match commanded p with None => (update_joint_states A i l, true) | Some k => update_joint_commands A k i l end) as [l1 ok].
  cbn in U. destruct ok; cbn [negb]; [|exact U].
  destruct (joint_state_data A i l1) as [js|]; [|exact U].
  destruct (match commanded p with None => Some no_data | Some k => joint_command_data A k i l1 end) as [jc|]; [|exact U].
  set (d := mkHData A (ti_name i) t act cmd js jc). set (l2 := add_transmission A t l1).
  assert (R : same_joints A l2 (fst (match p with StateProvider => register_state A d l2 | CommandProvider k => register_command A k d l2 | BothProvider k => register_both A k d l2 end))).
  { destruct p; [apply register_state_joints | apply register_command_joints | apply register_both_joints]. }
  destruct (match p with StateProvider => register_state A d l2 | CommandProvider k => register_command A k d l2 | BothProvider k => register_both A k d l2 end) as [l3 ok].
  cbn [fst] in *. eapply flag_step_trans; [exact U|]. eapply flag_step_trans; [|exact (flag_step_joints _ _ R)]. now apply flag_step_same.
Qed.
Lemma load_ifaces_step hws : forall i t b l, flag_step l (fst (load_ifaces A hws i t b l)).
Proof.
  induction hws as [|hw hws IH]; intros i t b l; cbn [load_ifaces]; [now apply flag_step_same|]. destruct (provider_of hw) as [p|]; [|apply IH].
  pose proof (load_maps_step p i t l) as S. destruct (load_maps A p i t l) as [l1 o]. cbn in S.
  destruct o; try exact S. eapply flag_step_trans; [exact S | apply IH].
Qed.
Lemma load_info_step i l : flag_step l (fst (load_info A i l)).
Proof.
  unfold load_info. destruct (load_transmission A i); try now apply flag_step_same. destruct (ti_joints i) as [|j js]; [now apply flag_step_same|].
  destruct (ji_ifaces j); [now apply flag_step_same|]. destruct (same_interfaces _ _); [apply load_ifaces_step | now apply flag_step_same].
Qed.
End Kept.
