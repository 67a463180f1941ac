(** What the parts of a robot are told, and the exact course of a switch on a robot. *)
From Verif Require Import HwTypes Lifecycle SMap ConflictModel ConflictProofs CMModel CMSpec CMInv CMTrace CMCycle CMSwitch CMLife CMSession CMExcl CMHooks CMLoad CMRest CMFinal CMSeqSpec CMSeq CMOnce CMDo
  HwModel HwSpec HwProofs HwMgr HwBuilt HwInit HwClaims CombModel CombSpec CombProofs SysModel SysSpec SysProofs SysInv SysMain.
Open Scope Z_scope.
Local Open Scope list_scope.

(** ** lists *)
Lemma app_split {A} (a b : list A) : forall pre x post, a ++ b = pre ++ x :: post ->
  (exists m, a = pre ++ x :: m /\ post = m ++ b) \/ (exists m, pre = a ++ m /\ b = m ++ x :: post).
Proof.
  induction a as [|y a IH]; intros pre x post E; [right; exists pre; auto|]. destruct pre as [|z pre]; cbn [app] in E; injection E as E1 E2.
  - left. subst. exists a. auto.
  - destruct (IH _ _ _ E2) as [(m & A1 & A2)|(m & A1 & A2)]; subst; [left|right]; exists m; auto.
Qed.
Lemma parts_first cs R : forall pre e post, map OfPart cs ++ R = pre ++ Of e :: post -> exists m, pre = map OfPart cs ++ m /\ R = m ++ Of e :: post.
Proof.
  intros pre e post E. apply app_split in E as [(m & A & _)|(m & A & B)]; [|eauto]. exfalso.
  assert (In (Of e) (map OfPart cs)) as H by (rewrite A; apply in_elt). apply in_map_iff in H as (c & H & _). discriminate H.
Qed.
Lemma expand_at parts ans es : forall pre e post, flat_map (expand parts ans) es = pre ++ Of e :: post ->
  exists es1 es2, es = es1 ++ e :: es2 /\ pre = flat_map (expand parts ans) es1 /\ post = map OfPart (part_calls parts ans e) ++ flat_map (expand parts ans) es2.
Proof.
  induction es as [|x es IH]; intros pre e post E; cbn [flat_map] in E; [destruct pre; discriminate E|]. unfold expand at 1 in E. cbn [app] in E.
  destruct pre as [|y pre]; cbn [app] in E; injection E as E1 E2.
  - subst x. exists [], es. auto.
  - subst y. apply parts_first in E2 as (m & -> & E2). apply IH in E2 as (es1 & es2 & -> & -> & ->). exists (x :: es1), es2. auto.
Qed.

(** ** quiet operations *)
Lemma each_forall {A} (Q : event -> Prop) (f : heap -> A -> heap * list event) l : (forall h a, Forall Q (snd (f h a))) -> forall h, Forall Q (snd (for_each f h l)).
Proof.
  intros Hf h. pose proof (for_each_ind f (fun _ e => Forall Q e) l (fun a h e _ He => proj2 (Forall_app _ _ _) (conj He (Hf h a))) h [] (Forall_nil _)) as H. exact H.
Qed.
Definition calm (e : event) : Prop := match e with EvCb _ CbWaiting _ | EvCb _ CbAborting _ => False | _ => True end.
Lemma start_calm t h i : Forall calm (snd (start_request t h i)).
Proof. unfold start_request. destruct (h i); cbn; repeat constructor. Qed.
Lemma stop_calm t h i : Forall calm (snd (stop_body t h i)).
Proof. unfold stop_body, stop_request. destruct (is_running h i); [|constructor]. destruct (h i); cbn; repeat constructor. Qed.
Lemma asap_calm t hw sw l start : (forall k i, hw_one hw k 0%nat i = DONE) -> forall k h, Forall calm (snd (asap_loop t hw sw l k h start)).
Proof.
  intros Hw. induction start as [|i start IH]; intros k h; [constructor|]. cbn [asap_loop].
  assert (H1 : Forall calm (snd (if is_running h i then (h, []) else for_each (asap_inner t hw sw k i) h l))).
  { destruct (is_running h i); [constructor|]. apply each_forall. intros h0 c. unfold asap_inner. destruct (Nat.eqb i (sp_inst c)); [|constructor]. rewrite Hw. cbn [swstate_eqb]. apply start_calm. }
  destruct (if is_running h i then (h, []) else for_each (asap_inner t hw sw k i) h l) as [h1 e1]. specialize (IH (S k) h1). destruct (asap_loop t hw sw l (S k) h1 start) as [h2 e2].
  cbn [snd] in *. apply Forall_app. auto.
Qed.
Lemma update_calm t p r hw s : hw_done hw -> Forall calm (snd (update t p r hw s)).
Proof.
  intros [H1 H2]. destruct (update_decomp t p r hw s) as (h & _ & ->).
  assert (E0 : Forall calm ((if r then reset_events t (cm_heap s) (cm_list s) else []) ++ upd_events t p (cm_heap s) (cm_list s))).
  { apply Forall_app. split.
    - destruct r; [|constructor]. unfold reset_events. apply Forall_forall. intros e He. apply in_flat_map in He as (c & _ & He).
      cbn in He. repeat (destruct He as [<-|He]; [exact I|]). destruct He.
    - unfold upd_events. apply Forall_forall. intros e He. apply in_map_iff in He as (c & <- & _). exact I. }
  destruct (sw_do (cm_sw s)); cbn [snd]; [|exact E0]. apply Forall_app. split; [exact E0|].
  destruct (manage_decomp t hw (set_heap s h)) as (_ & _ & ->). apply Forall_app. split; [unfold hwdo; destruct (sw_started _); repeat constructor|].
  apply Forall_app. split; [apply each_forall; intros; apply stop_calm|].
  unfold start_stage. destruct (sw_asap _).
  - unfold start_controllers_asap. match goal with |- context[asap_loop ?a ?b ?c ?d ?e ?f ?g] => pose proof (asap_calm a b c d g H2 e f) as G; destruct (asap_loop a b c d e f g) as [h1 e1] end. exact G.
  - unfold start_controllers. rewrite H1. cbn [swstate_eqb fst]. apply each_forall. intros. apply start_calm.
Qed.
Lemma no_load_calm_other s o : (forall t p r hw, o = Cycle t p r hw -> hw_done hw) -> Forall calm (snd (fst (step s o))).
Proof.
  intros Ho. destruct o as [n env|n|a b z asap tmo now ck pr|w o1 o2|t p r hw| | |force now ck pr|l];
    unfold step; destruct (cm_call s) as [|tmo' k] eqn:Hc; try (constructor; fail).
  - unfold load_controller. destruct (existsb _ _); [constructor|]. destruct (negb _); [constructor|]. destruct (le_type env) as [ty|]; [|constructor].
    pose proof (construct_create ty 0 (cm_loaders s)) as F. destruct (construct ty 0 (cm_loaders s)) as [c ec]. cbn [snd] in F.
    assert (G : Forall calm ec) by (eapply Forall_impl; [|exact F]; intros []; cbn; (discriminate || tauto)).
    destruct c; cbn [fst snd]; [|exact G]. destruct (le_init env); cbn [fst snd]; try exact G. apply Forall_app. split; [exact G|repeat constructor].
  - pose proof (unload_frame n s) as F. destruct (unload_controller n s) as [[s1 e1] x]. cbn [fst snd] in *. destruct F as (_ & _ & _ & _ & _ & _ & _ & _ & F).
    eapply Forall_impl; [|exact F]. intros []; cbn; tauto.
  - pose proof (switch_begin_prepare a b z asap tmo now ck pr KReturn s) as F. destruct (switch_begin _ _ _ _ _ _ _ _ _ _) as [[s1 e1] x]. cbn [fst snd] in *.
    eapply Forall_impl; [|exact F]. intros []; cbn; tauto.
  - unfold poll. destruct (o1 && _); [destruct (negb o2); [|destruct (_ || _)]|]; try constructor;
    (match goal with |- context[switch_return ?b ?c k s] => pose proof (switch_return_frame b c k s) as F end;
     eapply Forall_impl; [|apply F]; intros []; cbn; tauto).
  - pose proof (update_calm t p r hw s (Ho _ _ _ _ eq_refl)) as F. destruct (update t p r hw s). exact F.
  - pose proof (update_calm t p r hw s (Ho _ _ _ _ eq_refl)) as F. destruct (update t p r hw s). exact F.
  - destruct (controller_names s) as [|x l] eqn:E.
    + eapply Forall_impl; [|apply (reload_tail_frame [] s)]. intros []; cbn; tauto.
    + destruct (negb force); [constructor|].
      pose proof (switch_begin_prepare [] (x :: l) BEST_EFFORT false 0 now ck pr (KReload (x :: l)) s) as F.
      destruct (switch_begin _ _ _ _ _ _ _ _ _ _) as [[s1 e1] y]. cbn [fst snd] in *. eapply Forall_impl; [|exact F]. intros []; cbn; tauto.
Qed.

(** While a caller waits and no cycle runs, nothing happens. *)
Lemma waiting_quiet mid : forall s tmo k, cm_call s = WaitSwitch tmo k -> no_reply s mid -> no_cycle mid ->
  snd (run s mid) = [] /\ cm_sw (fst (run s mid)) = cm_sw s.
Proof.
  induction mid as [|o mid IH]; intros s tmo k Hc Hn Hy; [auto|]. destruct Hn as [Ho Hn]. inversion Hy as [|? ? Y1 Y2]; subst. cbn [run].
  assert (F : snd (fst (step s o)) = [] /\ cm_sw (fst (fst (step s o))) = cm_sw s /\ cm_call (fst (fst (step s o))) = WaitSwitch tmo k).
  { unfold step in *. rewrite Hc in *. destruct o; cbn [fst snd] in *; auto; [|destruct Y1].
    unfold poll in *. destruct (_ && _); [destruct (negb _); [|destruct (_ || _)]|]; auto; exfalso; unfold switch_return in Ho; destruct k; cbn [fst snd] in Ho;
      try (destruct Ho; discriminate).
    unfold reload_tail in Ho. destruct (unload_all _ _) as [[? ?] [|]]; cbn in Ho; [|destruct Ho; discriminate]. destruct (cm_list c); cbn in Ho; destruct Ho; discriminate. }
  destruct (step s o) as [[s1 e1] x]. cbn [fst snd] in *. destruct F as (-> & F2 & F3). destruct (IH s1 tmo k F3 Hn Y2) as [I1 I2].
  destruct (run s1 mid) as [s2 e2]. cbn [fst snd] in *. split; [exact I1|congruence].
Qed.
Lemma no_sys_cycle_proj kd mid : no_sys_cycle mid -> forall s, no_cycle (cm_ops kd s mid).
Proof. induction 1 as [|o mid Ho H IH]; intros s; [constructor|]. cbn [cm_ops]. constructor; [destruct o; auto|apply IH]. Qed.
Lemma no_cycle_cycled mid : no_cycle mid -> cycled mid = false.
Proof. induction 1 as [|o mid Ho H IH]; [reflexivity|]. cbn. destruct o; auto. destruct Ho. Qed.

Section Rest.
  Variable kd : string -> tkind.
  Variable ls : list loader.
  Variable rb : robot.
  Hypothesis Hk : claiming_managed kd.
  Hypothesis Hb : built kd (rb_world rb) (rb_mgr rb).
  Notation strace := (sys_trace kd ls rb).
  Notation cops ops := (cm_ops kd (sys_init ls rb) ops).
  Notation parts := (rb_parts rb).

  Lemma emits_plain ops o : (forall n nh ty q, o <> SLoad n nh ty q) ->
    sys_emits kd ls rb ops o = flat_map (expand parts (answers_of o)) (emits ls (cops ops) (cm_op kd (sys_reach kd ls rb ops) o)).
  Proof.
    intros Ho. unfold sys_emits, emits. rewrite <- reach_proj. unfold sys_step. rewrite parts_proj. destruct (step (sy_cm (sys_reach kd ls rb ops)) _) as [[c e] a].
    destruct o; try reflexivity. destruct (Ho _ _ _ _ eq_refl).
  Qed.

  (** ** no waiting, no aborting *)
  Lemma sys_calm ops : Forall calm (of_manager (strace ops)).
  Proof.
    induction ops as [|o ops IH] using rev_ind; [constructor|]. destruct (sys_reach_snoc kd ls rb ops o) as [_ ->]. rewrite of_manager_app. apply Forall_app. split; [exact IH|].
    rewrite emits_proj. apply no_load_calm_other. intros t p r hw E. destruct o; cbn in E; try discriminate E. injection E as _ _ _ <-. split; reflexivity.
  Qed.

  (** ** whatever the hooks are given are claims of loaded controllers *)
  Lemma event_loaded ops0 rest ops i c : cops ops = ops0 ++ rest -> In (i, c) (loaded (trace ls ops0)) -> In (EvLoaded i c) (of_manager (strace ops)).
  Proof.
    intros E H. apply loaded_event in H as [[]|H]. rewrite trace_proj, E. destruct (reach_app ls ops0 rest) as [_ ->]. apply in_or_app. auto.
  Qed.
  Lemma event_sets ops l : (forall c, In c l -> exists i, In (EvLoaded i c) (of_manager (strace ops))) -> claim_sets l.
  Proof.
    intros H c f Hc Hf. destruct (H c Hc) as [i Hi]. destruct (sinv_reach kd ls rb Hk Hb ops). destruct (si_from _ _ Hi) as [q Hq]. apply (si_claims _ _ _ Hq). exact Hf.
  Qed.
  Lemma hooks_loaded ops x y ok : none_abandoned ops -> In (EvPrepare x y ok) (of_manager (strace ops)) ->
    forall c, In c x \/ In c y -> exists i, In (EvLoaded i c) (of_manager (strace ops)).
  Proof.
    intros N H c Hc. rewrite trace_proj in H. apply event_from in H as (ops0 & o & rest & E & H).
    assert (N0 : no_abandoned ops0).
    { pose proof (not_abandoned_ops kd ops N (sys_init ls rb)) as N'. rewrite E in N'. apply Forall_app in N' as [N' _]. exact N'. }
    destruct (hook_lists ls ops0 o x y ok N0 H) as ((a & b & _ & -> & ->) & _). destruct Hc as [Hc|Hc].
    - apply to_start_loaded in Hc as [i Hc]. exists i. eapply event_loaded; eauto.
    - apply to_stop_loaded in Hc as [i Hc]. exists i. eapply event_loaded; eauto.
  Qed.
  Lemma prepare_sets ops x y ok : none_abandoned ops -> In (EvPrepare x y ok) (of_manager (strace ops)) -> claim_sets x /\ claim_sets y.
  Proof. intros N H. split; apply (event_sets ops); intros c Hc; eapply hooks_loaded; eauto. Qed.
  Lemma do_has_prepare ops pre x y post : strace ops = pre ++ Of (EvDo x y) :: post -> In (EvPrepare x y true) (of_manager pre).
  Proof.
    intros E. assert (E' : trace ls (cops ops) = of_manager pre ++ EvDo x y :: of_manager post) by (rewrite <- trace_proj, E; apply of_manager_app).
    pose proof (hooks_follow ls (cops ops)) as H. destruct (do_prepared false _ HIdle _ _ _ _ H E') as [X|X]; [discriminate X|exact X].
  Qed.
  Lemma do_sets ops x y : none_abandoned ops -> In (Of (EvDo x y)) (strace ops) -> claim_sets x /\ claim_sets y.
  Proof.
    intros N H. apply in_split in H as (pre & post & E). pose proof (do_has_prepare _ _ _ _ _ E) as H. apply (prepare_sets ops x y true N).
    rewrite E, of_manager_app. apply in_or_app. auto.
  Qed.

  (** ** what follows a call of the robot *)
  Lemma calls_follow ops : forall pre e post, strace ops = pre ++ Of e :: post ->
    exists ans post', right_answer rb ans e /\ post = map OfPart (part_calls parts ans e) ++ post'.
  Proof.
    induction ops as [|o ops IH] using rev_ind; intros pre e post E; [destruct pre; discriminate E|].
    destruct (sys_reach_snoc kd ls rb ops o) as [_ Et]. rewrite Et in E. apply app_split in E as [(m & A & ->)|(m & -> & B)].
    - destruct (IH _ _ _ A) as (ans & post' & R & ->). exists ans, (post' ++ sys_emits kd ls rb ops o). rewrite app_assoc. auto.
    - destruct (emits_shape kd ls rb ops o) as (p0 & Hp & Es). rewrite Es in B.
      assert (G : exists m', flat_map (expand parts (answers_of o)) (emits ls (cops ops) (cm_op kd (sys_reach kd ls rb ops) o)) = m' ++ Of e :: post).
      { destruct Hp as [->|(i & q & r & ->)]; [eauto|]. destruct m as [|y m]; cbn [app] in B; [discriminate B|]. injection B as _ B. eauto. }
      destruct G as [m' G]. apply expand_at in G as (es1 & es2 & E1 & _ & ->). eexists _, _. split; [|reflexivity].
      pose proof (step_right kd rb (sys_reach kd ls rb ops) o (parts_proj kd ls rb ops)) as R. rewrite reach_proj in R. fold (emits ls (cops ops) (cm_op kd (sys_reach kd ls rb ops) o)) in R.
      rewrite E1 in R. rewrite Forall_forall in R. apply R. apply in_elt.
  Qed.

  Lemma part_filter has p l : knows kd (rb_world rb) has parts -> In p parts -> claim_sets l -> filter_list (pt_mgr p) l = concerned (has p) l.
  Proof. intros K Hp Hl. destruct (K p Hp) as [B H]. eapply filter_list_spec; eauto. Qed.

  Lemma told_do has ops pre x y post : none_abandoned ops -> knows kd (rb_world rb) has parts -> strace ops = pre ++ Of (EvDo x y) :: post ->
    exists post', post = map (fun p => OfPart (PDo (pt_id p) (concerned (has p) x) (concerned (has p) y))) parts ++ post'.
  Proof.
    intros N K E. destruct (do_sets ops x y N) as [S1 S2]. { rewrite E. apply in_elt. }
    destruct (calls_follow ops _ _ _ E) as (ans & post' & _ & ->). exists post'. f_equal. cbn [part_calls]. unfold comb_do. rewrite map_map. apply map_ext_in.
    intros p Hp. rewrite !(part_filter has p) by assumption. reflexivity.
  Qed.
  Lemma told_prepare has ops pre x y ok post : none_abandoned ops -> knows kd (rb_world rb) has parts -> strace ops = pre ++ Of (EvPrepare x y ok) :: post ->
    let asks p b := OfPart (PPrepare (pt_id p) (concerned (has p) x) (concerned (has p) y) b) in
    exists post', (ok = true /\ post = map (fun p => asks p true) parts ++ post') \/
      (ok = false /\ exists before p rest, parts = before ++ p :: rest /\ post = map (fun p => asks p true) before ++ asks p false :: post').
  Proof.
    intros N K E asks. destruct (prepare_sets ops x y ok N) as [S1 S2]. { rewrite E, of_manager_app. apply in_or_app. right. left. reflexivity. }
    destruct (calls_follow ops _ _ _ E) as (ans & post' & R & ->). exists post'. cbn [part_calls right_answer] in *.
    assert (F : forall p, In p parts -> CombProofs.asked ans x y p = PPrepare (pt_id p) (concerned (has p) x) (concerned (has p) y) (accepts ans x y p)).
    { intros p Hp. unfold CombProofs.asked, accepts. rewrite !(part_filter has p) by assumption. reflexivity. }
    unfold prepare_of in R. destruct (comb_prepare ans parts x y) as [cs r] eqn:Ec. cbn [fst snd] in *. subst r.
    apply prepare_spec in Ec as [(-> & -> & H)|(-> & before & p & rest & Ep & -> & H & Hp)].
    - left. split; [reflexivity|]. f_equal. rewrite map_map. apply map_ext_in. intros p Hp. rewrite (F p Hp). rewrite forallb_forall in H. rewrite (H p Hp). reflexivity.
    - right. split; [reflexivity|]. exists before, p, rest. split; [exact Ep|]. rewrite !map_app, <- app_assoc. cbn [map app]. f_equal.
      + rewrite map_map. apply map_ext_in. intros q Hq. rewrite forallb_forall in H. rewrite F by (rewrite Ep; apply in_or_app; auto). rewrite (H q Hq). reflexivity.
      + rewrite F by (rewrite Ep; apply in_elt). rewrite Hp. reflexivity.
  Qed.

  (** ** the course of a switch *)
  Section Course.
    Variable ops : list sysop.
    Variables a b : list string.
    Variable z : Z.
    Variable asap : bool.
    Variables tmo now : Z.
    Variable ans : nat -> list cinfo -> list cinfo -> bool.
    Variable mid : list sysop.
    Let sw := SSwitch a b z asap tmo now ans.
    Hypothesis Hclean : none_abandoned ops.
    Hypothesis Hidle : sys_idle kd ls rb ops.
    Hypothesis Hacc : sys_reply kd ls rb ops sw = ANone.
    Let mt := of_manager (strace ops).

    Lemma accept_emits has : knows kd (rb_world rb) has parts ->
      sys_emits kd ls rb ops sw = Of (EvPrepare (to_start mt a) (to_stop mt b) true) ::
        map (fun p => OfPart (PPrepare (pt_id p) (concerned (has p) (to_start mt a)) (concerned (has p) (to_stop mt b)) true)) parts.
    Proof.
      intros K. pose proof Hacc as H. rewrite reply_proj in H. cbn [cm_op sw] in H. rewrite parts_proj in H.
      pose proof (not_abandoned_ops kd ops Hclean (sys_init ls rb)) as N. pose proof (proj1 (idle_proj kd ls rb ops) Hidle) as Hi.
      destruct (accepted_state ls (cops ops) N Hi a b z asap tmo now check_for_conflict (prepare_of parts ans) H) as (Et & _).
      rewrite trace_snoc in Et. apply app_inv_head in Et. rewrite <- trace_proj in Et. fold mt in Et.
      assert (R : prepare_of parts ans (to_start mt a) (to_stop mt b) = true).
      { destruct (prepare_lists ls (cops ops) N Hi a b z asap tmo now check_for_conflict (prepare_of parts ans) (to_start mt a) (to_stop mt b) true) as (_ & _ & X); [rewrite Et; left; reflexivity|]. auto. }
      rewrite emits_plain by discriminate. cbn [cm_op sw]. rewrite parts_proj, Et. cbn [flat_map]. rewrite app_nil_r. unfold expand. unfold sw. cbn [part_calls answers_of]. f_equal.
      unfold prepare_of in R. destruct (comb_prepare ans parts (to_start mt a) (to_stop mt b)) as [cs r] eqn:Ec. cbn [fst snd] in *.
      apply prepare_spec in Ec as [(_ & -> & H1)|(X & _)]; [|congruence]. rewrite map_map. apply map_ext_in. intros p Hp. unfold CombProofs.asked.
      rewrite forallb_forall in H1. specialize (H1 p Hp). unfold accepts in H1. rewrite H1. unfold mt. rewrite !(part_filter has p); auto; [apply (stop_sets kd ls rb Hk Hb ops)|apply (start_sets kd ls rb Hk Hb ops)].
    Qed.

    Hypothesis Hwait : sys_waiting kd ls rb (ops ++ [sw]) mid.
    Hypothesis Hquiet : no_sys_cycle mid.
    Let before := (ops ++ [sw]) ++ mid.

    Lemma course_facts : let mid' := cm_ops kd (sys_reach kd ls rb (ops ++ [sw])) mid in
      let sw' := Switch a b z asap tmo now check_for_conflict (prepare_of parts ans) in
      no_abandoned (cops ops) /\ idle ls (cops ops) /\ reply ls (cops ops) sw' = ANone /\ still_waiting ls (cops ops ++ [sw']) mid' /\
      pending ls ((cops ops ++ [sw']) ++ mid') /\ cops before = (cops ops ++ [sw']) ++ mid' /\ cycled mid' = false /\
      trace ls (cops before) = trace ls (cops ops) ++ [EvPrepare (to_start mt a) (to_stop mt b) true].
    Proof.
      cbv zeta. pose proof (not_abandoned_ops kd ops Hclean (sys_init ls rb)) as N. pose proof (proj1 (idle_proj kd ls rb ops) Hidle) as Hi.
      pose proof Hacc as H. rewrite reply_proj in H. cbn [cm_op sw] in H. rewrite parts_proj in H.
      pose proof (proj1 (waiting_proj kd ls rb (ops ++ [sw]) mid) Hwait) as Hw. rewrite cops_snoc in Hw. cbn [cm_op sw] in Hw. rewrite parts_proj in Hw. fold sw in Hw.
      pose proof (no_sys_cycle_proj kd mid Hquiet (sys_reach kd ls rb (ops ++ [sw]))) as Hy.
      destruct (accepted_state ls (cops ops) N Hi a b z asap tmo now check_for_conflict (prepare_of parts ans) H) as (Et & _ & _ & _ & _ & _ & _ & Ec & Es).
      destruct (waiting_quiet _ _ _ _ Ec Hw Hy) as [Q1 Q2].
      assert (Eb : cops before = (cops ops ++ [Switch a b z asap tmo now check_for_conflict (prepare_of parts ans)]) ++ cm_ops kd (sys_reach kd ls rb (ops ++ [sw])) mid).
      { unfold before. rewrite cops_app, cops_snoc. cbn [cm_op sw]. rewrite parts_proj. reflexivity. }
      repeat (split; [assumption|]). split; [|split; [exact Eb|split; [apply no_cycle_cycled; exact Hy|]]].
      - apply (do_pending ls (cops ops) a b z asap tmo now check_for_conflict (prepare_of parts ans) _ N Hi H Hw).
        match goal with |- context[reach ls (?x ++ ?y)] => destruct (reach_app ls x y) as [Er _] end. rewrite Er, Q2, Es. reflexivity.
      - rewrite Eb. match goal with |- context[trace ls (?x ++ ?y)] => destruct (reach_app ls x y) as [_ Er] end. rewrite Er, Q1, app_nil_r, Et. unfold mt. rewrite trace_proj. reflexivity.
    Qed.

    Lemma phase_prepare tr x y ok i : phase_of (tr ++ [EvPrepare x y ok]) i = phase_of tr i.
    Proof. rewrite phase_snoc. reflexivity. Qed.
    Lemma runsb_prepare tr x y ok i : runsb (tr ++ [EvPrepare x y ok]) i = runsb tr i.
    Proof. unfold runsb. rewrite phase_prepare. reflexivity. Qed.

    Lemma expand_silent anss es : Forall (fun e => part_calls parts anss e = []) es -> flat_map (expand parts anss) es = map Of es.
    Proof. induction 1 as [|e es He H IH]; [reflexivity|]. cbn [flat_map map]. unfold expand at 1. rewrite He, IH. reflexivity. Qed.

    Lemma apart_starts t p states skip req : starts_apart (hw_of p states) skip now tmo t req = map (fun c => EvCb (fst c) CbStarting t) (filter (fun c => negb (skip c)) req).
    Proof.
      unfold starts_apart. match goal with |- flat_map ?f _ = _ => set (F := f) end. enough (G : forall k, flat_map F (List.combine (seq k (length req)) req) = map (fun c => EvCb (fst c) CbStarting t) (filter (fun c => negb (skip c)) req)) by apply G.
      induction req as [|c req IH]; intros k; [reflexivity|]. cbn [length seq List.combine flat_map filter]. rewrite IH. unfold F. cbn [snd fst].
      destruct (skip c); reflexivity.
    Qed.

    Lemma exact_course has t p states : knows kd (rb_world rb) has parts -> (asap = true -> NoDup a) ->
      sys_emits kd ls rb before (SCycle t p false states) =
        map (fun c => Of (EvCb (fst c) (CbUpdate p) t)) (running_list mt) ++
        Of (EvDo (to_start mt a) (to_stop mt b)) ::
        map (fun q => OfPart (PDo (pt_id q) (concerned (has q) (to_start mt a)) (concerned (has q) (to_stop mt b)))) parts ++
        map Of (stops_of mt mt b t) ++
        map (fun c => Of (EvCb (fst c) CbStarting t)) (filter (fun c => negb (asap && runsb mt (fst c) && negb (named b c))) (requested mt a)).
    Proof.
      intros K Hn. destruct course_facts as (N & Hi & H & Hw & Hp & Eb & Ey & Et). cbv zeta in *.
      rewrite emits_plain by discriminate. cbn [cm_op]. rewrite parts_proj, Eb.
      rewrite (exact_cycle ls (cops ops) a b z asap tmo now check_for_conflict (prepare_of parts ans) _ N Hi H Hw Hp t p (hw_of parts states) Hn).
      rewrite Ey. rewrite <- Eb, Et. rewrite <- trace_proj. fold mt. cbn [answers_of]. rewrite !flat_map_app. cbn [flat_map]. rewrite app_nil_r.
      assert (Er : forall e, running_list (mt ++ [EvPrepare (to_start mt a) (to_stop mt b) e]) = running_list mt).
      { intros e. unfold running_list. rewrite loaded_app. cbn [fold_left loaded_step]. apply filter_ext. intros c. apply runsb_prepare. }
      rewrite Er. f_equal.
      { rewrite expand_silent by (apply Forall_forall; intros e He; apply in_map_iff in He as (c & <- & _); reflexivity). rewrite map_map. reflexivity. }
      unfold expand at 1. cbn [app part_calls]. f_equal. f_equal.
      { unfold comb_do. rewrite map_map. apply map_ext_in. intros q Hq. unfold mt. rewrite !(part_filter has q); auto; [apply (stop_sets kd ls rb Hk Hb ops)|apply (start_sets kd ls rb Hk Hb ops)]. }
      f_equal.
      { rewrite expand_silent.
        - unfold stops_of. f_equal. f_equal. apply filter_ext. intros i. apply runsb_prepare.
        - apply Forall_forall. intros e He. unfold stops_of in He. apply in_map_iff in He as (c & <- & _). reflexivity. }
      destruct asap.
      - rewrite apart_starts. rewrite expand_silent by (apply Forall_forall; intros e He; apply in_map_iff in He as (c & <- & _); reflexivity). rewrite map_map. f_equal.
        apply filter_ext. intros c. rewrite runsb_prepare. reflexivity.
      - unfold starts_together. rewrite expand_silent by (apply Forall_forall; intros e He; apply in_map_iff in He as (c & <- & _); reflexivity). rewrite map_map. f_equal.
        cbn [andb negb]. clear. induction (requested mt a) as [|c l IH]; [reflexivity|]. cbn [filter]. f_equal. exact IH.
    Qed.

    Lemma one_cycle t p r states : let after := before ++ [SCycle t p r states] in
      (forall c, In c (loaded mt) -> phase_of (of_manager (strace after)) (fst c) =
         if named a c then PStarted else if named b c && runsb mt (fst c) then PStopped else phase_of mt (fst c)) /\
      sys_finished kd ls rb after true.
    Proof.
      cbv zeta. destruct course_facts as (N & Hi & H & Hw & Hp & Eb & _ & _). cbv zeta in *.
      destruct (one_step ls (cops ops) a b z asap tmo now check_for_conflict (prepare_of parts ans) _ N Hi H Hw t p r (hw_of parts states) Hp ltac:(split; reflexivity)) as [A B].
      unfold after_cycle in A, B. rewrite <- Eb in A, B. rewrite finished_proj. unfold mt. rewrite !trace_proj, cops_snoc. cbn [cm_op]. rewrite parts_proj. auto.
    Qed.
  End Course.

  (** ** resources reach their owners *)
  Lemma concerned_reports has x info T n : In info x -> (exists f, In f (ci_claims info) /\ ir_iface f = T /\ In n (ir_res f)) -> has T n = true -> reports (concerned has x) (ci_name info) T n.
  Proof.
    intros Hx (f & A1 & A2 & A3) Hh. subst T.
    exists (mkInfo (ci_name info) (ci_type info) (concerned_claims has (ci_claims info))), (mkIface (ir_iface f) (filter (has (ir_iface f)) (ir_res f))).
    assert (Hn : In n (filter (has (ir_iface f)) (ir_res f))) by (apply filter_In; auto).
    split; [|split; [reflexivity|split; [|split; [reflexivity|exact Hn]]]].
    - unfold concerned. apply in_map_iff. exists info. split; [reflexivity|]. apply filter_In. split; [exact Hx|].
      assert (touches has info = true) as Ht. { unfold touches. apply existsb_exists. exists f. split; [exact A1|]. apply existsb_exists. exists n. auto. }
      destruct (ci_claims info); auto.
    - cbn [ci_claims]. unfold concerned_claims. apply filter_In. split; [apply in_map_iff; exists f; auto|]. cbn [ir_res]. destruct (filter _ _); [destruct Hn|reflexivity].
  Qed.
  Lemma reports_concerned has x nm T n : reports (concerned has x) nm T n -> has T n = true /\ reports x nm T n.
  Proof.
    intros (c & f & Hc & E1 & Hf & E2 & Hn). unfold concerned in Hc. apply in_map_iff in Hc as (d & <- & Hd). cbn [ci_claims ci_name] in *. apply filter_In in Hd as [Hd _].
    unfold concerned_claims in Hf. apply filter_In in Hf as [Hf _]. apply in_map_iff in Hf as (g & <- & Hg). cbn [ir_iface ir_res] in *. apply filter_In in Hn as [Hn Hh]. subst.
    split; [exact Hh|]. exists d, g. auto.
  Qed.

  Lemma owner_told has env names ops i info q n :
    comb_init env (Some names) = ((parts, rb_mgr rb), true) -> knows kd (rb_world rb) has parts ->
    In (EvLoaded i info) (of_manager (strace ops)) -> initialised (strace ops) i q (ci_claims info) -> commands kd (rb_world rb) (rb_mgr rb) q n ->
    exists p T, In p parts /\ tk_claiming (kd T) = true /\ provides (rb_world rb) (pt_mgr p) T n /\
      forall x, In info x -> reports (concerned (has p) x) (ci_name info) T n.
  Proof.
    intros Hc K Hl Hi Hm. destruct (sinv_reach kd ls rb Hk Hb ops). destruct (si_claims i q _ Hi) as (_ & _ & C). destruct (C n Hm) as (f & F1 & F2 & F3 & F4).
    assert (exists p, In p parts /\ provides (rb_world rb) (pt_mgr p) (ir_iface f) n) as (p & Hp & Hpr).
    { apply (some_part_owns env names (rb_world rb) parts (rb_mgr rb)); assumption. }
    exists p, (ir_iface f). repeat (split; [assumption|]). intros x Hx. apply concerned_reports; [exact Hx|eauto|]. apply (K p Hp). split; [apply Hk; exact F3|exact Hpr].
  Qed.

  Lemma call_from ops c : In (OfPart c) (strace ops) -> exists ans e, In (Of e) (strace ops) /\ In c (part_calls parts ans e).
  Proof.
    induction ops as [|o ops IH] using rev_ind; [intros []|]. destruct (sys_reach_snoc kd ls rb ops o) as [_ Et]. rewrite Et. intros H. apply in_app_or in H as [H|H].
    - destruct (IH H) as (ans & e & A & B). exists ans, e. split; [apply in_or_app; auto|exact B].
    - destruct (emits_shape kd ls rb ops o) as (p0 & Hp & Es). rewrite Es in *. apply in_app_or in H as [H|H].
      { destruct Hp as [->|(i & q & r & ->)]; [destruct H|destruct H as [H|[]]; discriminate H]. }
      apply in_flat_map in H as (e & He & [H|H]); [discriminate H|]. apply in_map_iff in H as (c' & [= ->] & H).
      exists (answers_of o), e. split; [|exact H]. apply in_or_app. right. apply in_or_app. right. apply in_flat_map. exists e. split; [exact He|left; reflexivity].
  Qed.
  Lemma in_of_manager e tr : In (Of e) tr -> In e (of_manager tr).
  Proof. intros H. unfold of_manager. apply in_flat_map. exists (Of e). split; [exact H|left; reflexivity]. Qed.
  Lemma concerned_iff has x nm T n : reports (concerned has x) nm T n <-> reports x nm T n /\ has T n = true.
  Proof.
    split; [intros H; apply reports_concerned in H; tauto|]. intros [(c & f & Hc & <- & Hf & E & Hn) Hh]. apply concerned_reports; eauto.
  Qed.
  Lemma only_own has ops c : none_abandoned ops -> knows kd (rb_world rb) has parts -> In (OfPart c) (strace ops) ->
    exists p x y l l', In p parts /\
      ((exists b, c = PPrepare (pt_id p) l l' b /\ exists ok, In (Of (EvPrepare x y ok)) (strace ops)) \/
       c = PDo (pt_id p) l l' /\ In (Of (EvDo x y)) (strace ops)) /\
      forall nm T n, (reports l nm T n <-> reports x nm T n /\ tk_rm (kd T) = true /\ provides (rb_world rb) (pt_mgr p) T n) /\
                     (reports l' nm T n <-> reports y nm T n /\ tk_rm (kd T) = true /\ provides (rb_world rb) (pt_mgr p) T n).
  Proof.
    intros N K H. apply call_from in H as (ans & e & He & Hc).
    assert (G : forall x y p, claim_sets x -> claim_sets y -> In p parts ->
      forall nm T n, (reports (filter_list (pt_mgr p) x) nm T n <-> reports x nm T n /\ tk_rm (kd T) = true /\ provides (rb_world rb) (pt_mgr p) T n) /\
                     (reports (filter_list (pt_mgr p) y) nm T n <-> reports y nm T n /\ tk_rm (kd T) = true /\ provides (rb_world rb) (pt_mgr p) T n)).
    { intros x y p Sx Sy Hp nm T n. rewrite !(part_filter has p) by assumption. rewrite !concerned_iff. rewrite (proj2 (K p Hp)). tauto. }
    destruct e as [ | | |x y ok|x y| | ]; cbn [part_calls] in Hc; try contradiction.
    all: try (match type of Hc with In _ [] => destruct Hc end).
    - destruct (prepare_sets ops x y ok N (in_of_manager _ _ He)) as [Sx Sy].
      assert (exists p b, In p parts /\ c = PPrepare (pt_id p) (filter_list (pt_mgr p) x) (filter_list (pt_mgr p) y) b) as (p & b & Hp & ->).
      { destruct (comb_prepare ans parts x y) as [cs r] eqn:Ec. cbn [fst] in Hc. apply prepare_spec in Ec as [(_ & -> & _)|(_ & pre & q & rest & Ep & -> & _)];
          apply in_map_iff in Hc as (p & <- & Hp); exists p; eexists; (split; [|reflexivity]); [exact Hp|]. rewrite Ep. apply in_app_or in Hp as [Hp|[->|[]]]; [apply in_or_app; auto|apply in_elt]. }
      exists p, x, y, (filter_list (pt_mgr p) x), (filter_list (pt_mgr p) y). split; [exact Hp|]. split; [left; eexists; split; [reflexivity|eauto]|]. apply G; assumption.
    - destruct (do_sets ops x y N He) as [Sx Sy]. unfold comb_do in Hc. apply in_map_iff in Hc as (p & <- & Hp).
      exists p, x, y, (filter_list (pt_mgr p) x), (filter_list (pt_mgr p) y). split; [exact Hp|]. split; [right; auto|]. apply G; assumption.
  Qed.
End Rest.
