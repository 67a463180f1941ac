(** The manager of the whole behaves like the manager alone; what initialisation reports. *)
From Verif Require Import HwTypes Lifecycle SMap ConflictModel ConflictProofs CMModel CMSpec CMInv CMTrace CMCycle CMSwitch CMHooks CMLoad CMFinal
  HwModel HwSpec HwProofs HwMgr HwBuilt HwInit HwClaims CombModel CombSpec SysModel SysSpec.
Open Scope Z_scope.
Local Open Scope list_scope.

(** ** Projection *)
(** The operations the manager performs. *)
Fixpoint cm_ops (kd : string -> tkind) (s : sys) (ops : list sysop) : list op :=
  match ops with
  | [] => []
  | o :: ops' => cm_op kd s o :: cm_ops kd (fst (fst (sys_step kd s o))) ops'
  end.

Lemma of_manager_app a b : of_manager (a ++ b) = of_manager a ++ of_manager b.
Proof. apply flat_map_app. Qed.
Lemma of_manager_parts cs : of_manager (map OfPart cs) = [].
Proof. induction cs; auto. Qed.
Lemma of_manager_expand parts ans es : of_manager (flat_map (expand parts ans) es) = es.
Proof.
  induction es as [|e es IH]; [reflexivity|]. cbn [flat_map]. rewrite of_manager_app, IH. unfold expand. cbn [of_manager flat_map app].
  change (e :: of_manager (map OfPart (part_calls parts ans e)) ++ es = e :: es). rewrite of_manager_parts. reflexivity.
Qed.

Lemma sys_step_proj kd s o : let r := sys_step kd s o in let c := step (sy_cm s) (cm_op kd s o) in
  sy_cm (fst (fst r)) = fst (fst c) /\ of_manager (snd (fst r)) = snd (fst c) /\ snd r = snd c /\ rb_parts (sy_rb (fst (fst r))) = rb_parts (sy_rb s).
Proof.
  cbv zeta. unfold sys_step. destruct (step (sy_cm s) (cm_op kd s o)) as [[c e] a]. cbn [fst snd].
  pose proof (of_manager_expand (rb_parts (sy_rb s)) (answers_of o) e) as E.
  destruct o as [n nh ty q|n|a0 b z asap tmo now ans|f now ans|w k1 k2|t p r st| | |l]; try (cbn [fst snd sy_cm sy_rb]; auto; fail).
  destruct (gets_to_init (sy_cm s) n nh ty); [|cbn [fst snd sy_cm sy_rb]; auto].
  unfold init_on. destruct q as [T b1 b2|opt Ts b1 b2].
  - destruct (init_request _ _ _ _ _ _ _) as [[m w] r]. cbn [fst snd sy_cm sy_rb rb_parts]. auto.
  - destruct (multi_init _ _ _ _ _ _ _) as [[[m w] x] r]. cbn [fst snd sy_cm sy_rb rb_parts]. auto.
Qed.

Lemma sys_run_cons kd s o ops : sys_run kd s (o :: ops) =
  (fst (sys_run kd (fst (fst (sys_step kd s o))) ops), snd (fst (sys_step kd s o)) ++ snd (sys_run kd (fst (fst (sys_step kd s o))) ops)).
Proof. cbn [sys_run]. destruct (sys_step kd s o) as [[s1 e1] a]. cbn [fst snd]. destruct (sys_run kd s1 ops). reflexivity. Qed.
Lemma sys_run_app kd ops1 : forall s ops2, sys_run kd s (ops1 ++ ops2) =
  (fst (sys_run kd (fst (sys_run kd s ops1)) ops2), snd (sys_run kd s ops1) ++ snd (sys_run kd (fst (sys_run kd s ops1)) ops2)).
Proof.
  induction ops1 as [|o ops1 IH]; intros s ops2; [cbn [app sys_run fst snd]; destruct (sys_run kd s ops2); reflexivity|].
  cbn [app]. rewrite !sys_run_cons, IH. cbn [fst snd]. rewrite app_assoc. reflexivity.
Qed.

Lemma cm_ops_app kd a : forall s b, cm_ops kd s (a ++ b) = cm_ops kd s a ++ cm_ops kd (fst (sys_run kd s a)) b.
Proof.
  induction a as [|o a IH]; intros s b; [reflexivity|]. cbn [app cm_ops]. rewrite IH, sys_run_cons. reflexivity.
Qed.

Lemma sys_run_proj kd ops : forall s, let r := sys_run kd s ops in
  sy_cm (fst r) = fst (run (sy_cm s) (cm_ops kd s ops)) /\ of_manager (snd r) = snd (run (sy_cm s) (cm_ops kd s ops)) /\
  rb_parts (sy_rb (fst r)) = rb_parts (sy_rb s).
Proof.
  induction ops as [|o ops IH]; intros s; cbv zeta; [cbn; auto|]. rewrite sys_run_cons. cbn [fst snd cm_ops run].
  destruct (sys_step_proj kd s o) as (A & B & C & D). specialize (IH (fst (fst (sys_step kd s o)))). cbv zeta in IH. destruct IH as (I1 & I2 & I3).
  rewrite A in I1, I2. rewrite of_manager_app, B, I2, I1, I3, D. destruct (step (sy_cm s) (cm_op kd s o)) as [[c e] a]. cbn [fst snd].
  destruct (run c _). cbn [fst snd]. auto.
Qed.

Section Sys.
  Variable kd : string -> tkind.
  Variable ls : list loader.
  Variable rb : robot.
  Notation cops ops := (cm_ops kd (sys_init ls rb) ops).

  Lemma reach_proj ops : sy_cm (sys_reach kd ls rb ops) = reach ls (cops ops).
  Proof. apply (sys_run_proj kd ops (sys_init ls rb)). Qed.
  Lemma trace_proj ops : of_manager (sys_trace kd ls rb ops) = trace ls (cops ops).
  Proof. apply (sys_run_proj kd ops (sys_init ls rb)). Qed.
  Lemma parts_proj ops : rb_parts (sy_rb (sys_reach kd ls rb ops)) = rb_parts rb.
  Proof. apply (sys_run_proj kd ops (sys_init ls rb)). Qed.
  Lemma cops_app a b : cops (a ++ b) = cops a ++ cm_ops kd (sys_reach kd ls rb a) b.
  Proof. apply cm_ops_app. Qed.
  Lemma cops_snoc a o : cops (a ++ [o]) = cops a ++ [cm_op kd (sys_reach kd ls rb a) o].
  Proof. rewrite cops_app. reflexivity. Qed.
  Lemma reply_proj ops o : sys_reply kd ls rb ops o = reply ls (cops ops) (cm_op kd (sys_reach kd ls rb ops) o).
  Proof. unfold sys_reply, reply. rewrite <- reach_proj. apply sys_step_proj. Qed.
  Lemma emits_proj ops o : of_manager (sys_emits kd ls rb ops o) = emits ls (cops ops) (cm_op kd (sys_reach kd ls rb ops) o).
  Proof. unfold sys_emits, emits. rewrite <- reach_proj. apply sys_step_proj. Qed.
  Lemma idle_proj ops : sys_idle kd ls rb ops <-> idle ls (cops ops).
  Proof. unfold sys_idle, idle. rewrite reach_proj. tauto. Qed.
  Lemma sys_reach_snoc ops o : sys_reach kd ls rb (ops ++ [o]) = fst (fst (sys_step kd (sys_reach kd ls rb ops) o)) /\
    sys_trace kd ls rb (ops ++ [o]) = sys_trace kd ls rb ops ++ sys_emits kd ls rb ops o.
  Proof.
    unfold sys_reach, sys_trace, sys_emits. rewrite sys_run_app. cbn [fst snd]. unfold sys_reach. rewrite sys_run_cons. cbn [fst snd sys_run]. rewrite app_nil_r. auto.
  Qed.

  Lemma not_abandoned_ops ops : none_abandoned ops -> forall s, no_abandoned (cm_ops kd s ops).
  Proof.
    induction 1 as [|o ops Ho H IH]; intros s; [constructor|]. cbn [cm_ops]. constructor; [|apply IH]. destruct o; cbn; auto.
  Qed.
  Lemma checks_default ops : forall s, checks_with check_for_conflict (cm_ops kd s ops).
  Proof. induction ops as [|o ops IH]; intros s; [constructor|]. cbn [cm_ops]. constructor; [|apply IH]. destruct o; cbn; auto. Qed.
  Lemma no_reply_proj mid : forall s, sys_no_reply kd s mid <-> no_reply (sy_cm s) (cm_ops kd s mid).
  Proof.
    induction mid as [|o mid IH]; intros s; [tauto|]. cbn [sys_no_reply no_reply cm_ops]. destruct (sys_step_proj kd s o) as (A & _ & C & _).
    rewrite C, IH, A. tauto.
  Qed.
  Lemma waiting_proj ops mid : sys_waiting kd ls rb ops mid <-> still_waiting ls (cops ops) (cm_ops kd (sys_reach kd ls rb ops) mid).
  Proof. unfold sys_waiting, still_waiting. rewrite no_reply_proj, reach_proj. tauto. Qed.
  Lemma pending_proj ops : sys_pending kd ls rb ops <-> pending ls (cops ops).
  Proof. unfold sys_pending, pending. split; intros (w & H); exists w; rewrite reply_proj in *; exact H. Qed.
  Lemma finished_proj ops b : sys_finished kd ls rb ops b <-> finished ls (cops ops) b.
  Proof. unfold sys_finished, finished. split; intros H w k1 k2; specialize (H w k1 k2); rewrite reply_proj in *; exact H. Qed.
End Sys.

(** ** Initialisation *)
Lemma provides_same kd w m w' m' : built kd w m -> world_le w w' -> same_regs m m' -> forall T n, provides w' m' T n <-> provides w m T n.
Proof.
  intros Hb [_ Hw] (Hl & _) T n. unfold provides. rewrite Hl. destruct (built_inv _ _ _ Hb) as (_ & Ho & _). pose proof (ok_leaves _ _ _ _ (Ho T)) as F.
  rewrite Forall_forall in F. split; intros (i & Hi & Hr); exists i; (split; [exact Hi|]); [rewrite <- (Hw i (F i Hi)); exact Hr|rewrite (Hw i (F i Hi)); exact Hr].
Qed.

Lemma multi_le kd optional Ts b1 b2 m w m' w' seen r : built kd w m -> multi_init kd optional Ts b1 b2 m w = (m', w', seen, r) -> world_le w w'.
Proof.
  unfold multi_init. intros Hb H.
  destruct (if optional then (m, w, true) else has_interfaces kd Ts m w) as [[m1 w1] okk] eqn:E1.
  assert (S1 : built kd w1 m1 /\ world_le w w1).
  { destruct optional; [injection E1 as <- <- <-; split; [exact Hb|apply world_le_refl]|].
    destruct (has_interfaces_spec _ _ _ _ _ _ _ Hb E1) as (A1 & A2 & _). auto. }
  destruct S1 as [Hb1 L1]. destruct okk; [|injection H as <- <- <- <-; exact L1].
  destruct (extract kd Ts m1 w1 mgr_new) as [[m2 w2] out] eqn:E2. destruct (extract_spec _ _ _ _ _ _ _ _ Hb1 E2) as (_ & L2 & _).
  match type of H with context[run_both ?l b1 b2 ?x] => destruct (run_both l b1 b2 x) as [w4 v] eqn:E3 end.
  destruct (run_both_ok _ _ _ _ _ _ E3) as (M4 & _). destruct (clear_all_spec Ts out w2) as [M3 _].
  assert (L4 : world_le w w4).
  { eapply world_le_trans; [exact L1|]. eapply world_le_trans; [exact L2|]. apply same_maps_le. eapply same_maps_trans; eauto. }
  destruct v as [[|]|]; injection H as <- <- <- <-; try exact L4. eapply world_le_trans; [exact L4|]. apply same_maps_le. apply clear_all_spec.
Qed.

Lemma init_request_state_world kd T others b1 b2 m w m' w' r : built kd w m -> init_request (kd T) T others b1 b2 m w = (m', w', r) ->
  built kd w' m' /\ world_le w w' /\ same_regs m m'.
Proof.
  intros Hb Hi. destruct (get (kd T) T m w) as [[m1 w1] p] eqn:Eg. destruct (init_request_spec _ _ _ _ _ _ _ _ _ _ _ _ _ Eg Hi) as (-> & A & B).
  destruct (get_frame _ _ _ _ _ _ _ Eg) as (F1 & _ & F3 & _). assert (Hb1 : built kd w1 m1) by (eapply BGet; eauto).
  destruct p as [hw|].
  - destruct (B hw eq_refl) as [M _]. split; [|split; [eapply world_le_trans; [exact F1|apply same_maps_le; exact M]|exact F3]].
    eapply BOther; [exact Hb1|apply same_maps_le; exact M|]. apply world_ok_wf. intros i. rewrite (proj2 M). destruct (built_inv _ _ _ Hb1) as (Hw & _). apply world_ok_wf in Hw. apply Hw.
  - destruct (A eq_refl) as [_ ->]. auto.
Qed.

Lemma init_on_world kd rb q rb' r : built kd (rb_world rb) (rb_mgr rb) -> init_on kd rb q = (rb', r) ->
  built kd (rb_world rb') (rb_mgr rb') /\ world_le (rb_world rb) (rb_world rb') /\ same_regs (rb_mgr rb) (rb_mgr rb') /\ rb_parts rb' = rb_parts rb.
Proof.
  intros Hb H. unfold init_on in H. destruct q as [T b1 b2|opt Ts b1 b2].
  - destruct (init_request _ _ _ _ _ _ _) as [[m w] x] eqn:E. injection H as <- <-. cbn. destruct (init_request_state_world _ _ _ _ _ _ _ _ _ _ Hb E) as (A & B & C). auto.
  - destruct (multi_init _ _ _ _ _ _ _) as [[[m w] y] x] eqn:E. injection H as <- <-. cbn. destruct (multi_spec _ _ _ _ _ _ _ _ _ _ _ Hb E) as (A & B & _).
    split; [exact A|]. split; [eapply multi_le; eauto|]. auto.
Qed.

(** What is reported is what is commanded. *)
Lemma init_on_claims kd rb q rb' cl : claiming_managed kd -> built kd (rb_world rb) (rb_mgr rb) -> init_on kd rb q = (rb', OutOk cl) ->
  (forall f, In f cl -> increasing (ir_res f)) /\
  (forall n, (exists f, In f cl /\ In n (ir_res f)) <-> commands kd (rb_world rb) (rb_mgr rb) q n) /\
  forall n, commands kd (rb_world rb) (rb_mgr rb) q n ->
    exists f, In f cl /\ In n (ir_res f) /\ tk_claiming (kd (ir_iface f)) = true /\ provides (rb_world rb) (rb_mgr rb) (ir_iface f) n.
Proof.
  intros Hk Hb H.
  assert (G : (forall f, In f cl -> increasing (ir_res f)) /\
    (forall n, (exists f, In f cl /\ In n (ir_res f)) -> commands kd (rb_world rb) (rb_mgr rb) q n) /\
    forall n, commands kd (rb_world rb) (rb_mgr rb) q n ->
      exists f, In f cl /\ In n (ir_res f) /\ tk_claiming (kd (ir_iface f)) = true /\ provides (rb_world rb) (rb_mgr rb) (ir_iface f) n).
  2:{ destruct G as (G1 & G2 & G3). split; [exact G1|]. split; [|exact G3]. intros n. split; [apply G2|]. intros X. destruct (G3 n X) as (f & A & B & _). eauto. } unfold init_on in H. destruct q as [T b1 b2|opt Ts b1 b2].
  - destruct (init_request _ _ _ _ _ _ _) as [[m w] x] eqn:E. injection H as _ ->.
    destruct (get (kd T) T (rb_mgr rb) (rb_world rb)) as [[m1 w1] p] eqn:Eg. destruct (init_request_spec _ _ _ _ _ _ _ _ _ _ _ _ _ Eg E) as (-> & A & B).
    destruct p as [hw|]; [|destruct (A eq_refl) as [X _]; discriminate X]. destruct (B hw eq_refl) as [_ C]. destruct (C cl eq_refl) as (_ & _ & _ & res & -> & Hinc & Hres).
    split; [intros f [<-|[]]; exact Hinc|]. split; intros n; cbn [commands].
    + intros (f & [<-|[]] & Hn). cbn in Hn. apply Hres in Hn as [Hr [[Hc Hcall]|(j & X & _)]]; [|discriminate X].
      split; [exact Hc|]. split; [exact Hcall|]. apply (lookup_provides _ _ _ _ _ _ _ Hb (Hk _ Hc) Eg). exact Hr.
    + intros (Hc & Hcall & Hp). eexists. split; [left; reflexivity|]. cbn. split; [|auto]. apply Hres. split; [|left; auto].
      apply (lookup_provides _ _ _ _ _ _ _ Hb (Hk _ Hc) Eg). exact Hp.
  - destruct (multi_init _ _ _ _ _ _ _) as [[[m w] y] x] eqn:E. injection H as _ ->.
    destruct (multi_spec _ _ _ _ _ _ _ _ _ _ _ Hb E) as (_ & _ & _ & Hno & Hy).
    destruct y as [out|]; [|specialize (Hno eq_refl); discriminate Hno]. destruct (Hy out eq_refl) as (S1 & S2 & S3). destruct (S3 cl eq_refl) as (_ & _ & (ress & -> & Hf & Hr) & _).
    clear Hy S3 Hno.
    assert (Hst : forall T i n, tk_claiming (kd T) = true -> stands kd (rb_mgr rb) (rb_world rb) w T i ->
              (rm_get (ho_map (w_obj w i)) n <> None <-> provides (rb_world rb) (rb_mgr rb) T n)).
    { intros T i n Hc (_ & Hs). rewrite (Hk _ Hc) in Hs. destruct Hs as [Hs _]. rewrite Hs. apply first_rev. }
    assert (Hex : forall T, {exposed kd (rb_mgr rb) T} + {~ exposed kd (rb_mgr rb) T}).
    { intros T. unfold exposed. destruct (tk_rm (kd T)); [destruct (leaves T (rb_mgr rb))|destruct (sole T (rb_mgr rb))];
      [right; auto|left; discriminate|left; discriminate|right; auto]. }
    split.
    + intros f Hin. apply in_map_iff in Hin as ([T res] & <- & Hin). cbn. apply (Hr T res Hin).
    + split; intros n; cbn [commands].
      * intros (f & Hin & Hn). apply in_map_iff in Hin as ([T res] & <- & Hin). cbn in Hn. apply (Hr T res Hin) in Hn as (T' & Hcall & Hc & Heq & i & Hi & Hm).
        exists T'. rewrite Hi in Heq. destruct (in_dec string_dec T' Ts) as [HT|HT]; [|rewrite S2 in Heq by tauto; discriminate Heq].
        split; [exact HT|]. split; [exact Hc|]. split; [exact Hcall|]. destruct (Hex T') as [He|He]; [|rewrite S2 in Heq by tauto; discriminate Heq].
        destruct (S1 T' HT He) as (i' & Hi' & Hs). apply (Hst T' i' n Hc Hs). congruence.
      * intros (T & HT & Hc & Hcall & Hp).
        assert (He : exposed kd (rb_mgr rb) T).
        { unfold exposed. rewrite (Hk _ Hc). destruct Hp as (i & Hi & _). intros X. rewrite X in Hi. contradiction. }
        destruct (S1 T HT He) as (i & Hi & Hs).
        assert (HTr : In T (map fst ress)). { rewrite Hf. apply filter_In. rewrite Hi. auto. }
        apply in_map_iff in HTr as ([T0 res] & E0 & Hin). cbn in E0. subst T0. exists (mkIface T res). split; [apply in_map_iff; exists (T, res); auto|].
        cbn. split; [|auto]. apply (Hr T res Hin). exists T. split; [exact Hcall|]. split; [exact Hc|]. split; [reflexivity|]. exists i. split; [exact Hi|]. apply (Hst T i n Hc Hs). exact Hp.
Qed.

Lemma commands_same kd w m w' m' : built kd w m -> world_le w w' -> same_regs m m' -> forall q n, commands kd w' m' q n <-> commands kd w m q n.
Proof.
  intros Hb Hw Hs q n. pose proof (provides_same _ _ _ _ _ Hb Hw Hs) as P. destruct q as [T b1 b2|opt Ts b1 b2]; cbn.
  - rewrite P. tauto.
  - split; intros (T & A & B & C & D); exists T; rewrite P in *; auto.
Qed.
