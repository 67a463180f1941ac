(** Refused and timed out requests, hook lists, library reload. *)
From Verif Require Import HwTypes Lifecycle CMModel CMSpec CMInv CMTrace CMCycle CMSwitch CMLife CMSession CMExcl CMHooks CMLoad.

Lemma phase_st p q : p <> PGone -> p <> PAbsent -> q <> PGone -> st_of p = st_of q -> p = q \/ q = PAbsent.
Proof. destruct p, q; simpl; try congruence; auto. Qed.

(** ** nothing happens on behalf of a dead request *)
Lemma quiet_phases ls ops ops2 :
  idle ls ops -> cm_start (reach ls ops) = [] -> cm_stop (reach ls ops) = [] -> no_request ops2 ->
  (forall c, In c (loaded (trace ls ops)) ->
     phase_of (trace ls (ops ++ ops2)) (fst c) = PGone \/
     phase_of (trace ls (ops ++ ops2)) (fst c) = phase_of (trace ls ops) (fst c)) /\
  (hw_silent (reach ls ops) -> existsb is_do (emits_all ls ops ops2) = false).
Proof.
  intros Hi E1 E2 Hr. destruct (quiet_run ops2 _ Hi E1 E2 Hr) as (Q1 & Q2 & Q3).
  split; [|exact Q3].
  intros c Hc. pose proof (inv_reach ls ops) as HI. pose proof (inv_reach ls (ops ++ ops2)) as HI'.
  rewrite <- (inv_list _ _ HI) in Hc. apply in_map_iff in Hc as (d & <- & Hd). cbn [fst].
  destruct (inv_live _ _ HI d Hd) as [L1 L2].
  destruct (phase_of (trace ls (ops ++ ops2)) (sp_inst d)) eqn:Ep; auto; right;
  (pose proof (inv_sim _ _ HI' (sp_inst d)) as S; rewrite Ep in S; specialize (S ltac:(discriminate));
   destruct (reach_app ls ops ops2) as [Er _]; rewrite Er, (Q2 _ (inv_lt _ _ HI d Hd)), (inv_sim _ _ HI _ L1) in S;
   destruct (phase_of (trace ls ops) (sp_inst d)); simpl in S; congruence).
Qed.

Section Refused.
  Variables (ls : list loader) (ops : list op).
  Hypothesis Hclean : no_abandoned ops.
  Hypothesis Hidle : idle ls ops.
  Let s := reach ls ops.
  Let tr := trace ls ops.
  Variables (a b : list string) (z : Z) (asap : bool) (tmo now : Z).
  Variables (ck : list cinfo -> bool) (pr : list cinfo -> list cinfo -> bool).
  Let sw := Switch a b z asap tmo now ck pr.

  Lemma switch_replies : reply ls ops sw = ANone \/ reply ls ops sw = ABool false.
  Proof.
    unfold reply, step, sw. assert (Hc : cm_call (reach ls ops) = Idle) by exact Hidle. rewrite Hc.
    destruct (switch_begin _ _ _ _ _ _ _ _ _ _) as [[? ?] [|]]; auto.
  Qed.

  Lemma refused_state : reply ls ops sw = ABool false ->
    let s' := reach ls (ops ++ [sw]) in
    cm_call s' = Idle /\ cm_start s' = [] /\ cm_stop s' = [] /\ sw_do (cm_sw s') = false /\
    Forall (fun e => match e with EvPrepare _ _ false => True | _ => False end) (emits ls ops sw).
  Proof.
    cbv zeta. destruct (reach_snoc ls ops sw) as [-> _]. unfold reply, emits, step, sw. fold s.
    pose proof (inv_reach ls ops) as HI. fold s tr in HI. pose proof (inv2_reach ls ops Hclean) as HI2. fold s tr in HI2.
    assert (Hc : cm_call s = Idle) by exact Hidle. rewrite Hc.
    destruct (inv_idle _ _ HI2 Hc) as [E1 E2].
    destruct (switch_begin_spec s tr HI a b z asap tmo now ck pr KReturn E1 E2) as (s' & Es & H).
    destruct (switch_begin a b z asap tmo now ck pr KReturn s) as [[s1 e1] ok]. cbn [fst snd] in *. subst s'.
    destruct ok; [discriminate|]. intros _.
    destruct (_ && _).
    - destruct H as (-> & Hp & _ & _ & H). rewrite <- Hp in *. destruct H as (H1 & H2 & H3 & H4). rewrite H4. repeat split; auto.
    - destruct H as (-> & _ & H1 & H2 & H3 & H4). rewrite H4. repeat split; auto.
  Qed.

  Lemma refused_now : reply ls ops sw = ABool false ->
    loaded (trace ls (ops ++ [sw])) = loaded tr /\
    (forall i, phase_of (trace ls (ops ++ [sw])) i = phase_of tr i) /\
    (forall e, In e (emits ls ops sw) -> e = EvPrepare (to_start tr a) (to_stop tr b) false).
  Proof.
    intros H. destruct (refused_state H) as (_ & _ & _ & _ & F).
    assert (N : Forall neutral (emits ls ops sw)) by (eapply Forall_impl; [|exact F]; intros [| | | | | |]; simpl; tauto).
    rewrite trace_snoc. split; [apply loaded_neutral; exact N|]. split; [intros i; apply phase_neutral; exact N|].
    intros e He. pose proof (prepare_lists ls ops Hclean Hidle a b z asap tmo now ck pr) as P. fold tr sw in P.
    rewrite Forall_forall in F. specialize (F e He). destruct e as [| | |x y [|]| | |]; try contradiction.
    specialize (P x y false He). destruct P as (-> & -> & _). reflexivity.
  Qed.

  Lemma refused_later ops2 : reply ls ops sw = ABool false -> no_request ops2 ->
    existsb is_do (emits_all ls (ops ++ [sw]) ops2) = false /\
    forall c, In c (loaded tr) ->
      phase_of (trace ls ((ops ++ [sw]) ++ ops2)) (fst c) = PGone \/
      phase_of (trace ls ((ops ++ [sw]) ++ ops2)) (fst c) = phase_of tr (fst c).
  Proof.
    intros H Hr. destruct (refused_state H) as (H1 & H2 & H3 & H4 & _). destruct (refused_now H) as (L & P & _).
    destruct (quiet_phases ls (ops ++ [sw]) ops2 H1 H2 H3 Hr) as [Q1 Q2].
    split; [apply Q2; left; exact H4|]. intros c Hc. rewrite <- L in Hc. rewrite <- (P (fst c)). apply Q1; exact Hc.
  Qed.

  (** *** wall clock timeout *)
  Variable mid : list op.
  Hypothesis Hacc : reply ls ops sw = ANone.
  Hypothesis Hwait : still_waiting ls (ops ++ [sw]) mid.

  Lemma timeout_state w : reply ls ((ops ++ [sw]) ++ mid) (Poll w true true) = ABool false ->
    let o2 := ((ops ++ [sw]) ++ mid) ++ [Poll w true true] in
    idle ls o2 /\ cm_start (reach ls o2) = [] /\ cm_stop (reach ls o2) = [] /\
    cm_sw (reach ls o2) = cm_sw (reach ls ((ops ++ [sw]) ++ mid)) /\ trace ls o2 = trace ls ((ops ++ [sw]) ++ mid).
  Proof.
    cbv zeta. intros H. unfold idle.
    destruct (session_frame ls ops a b z asap tmo now ck pr mid Hclean Hidle Hacc Hwait) as (_ & _ & _ & _ & _ & Hc & _).
    fold sw in Hc. destruct (reach_snoc ls ((ops ++ [sw]) ++ mid) (Poll w true true)) as [-> ->].
    unfold reply in H. unfold step in *. rewrite Hc in *. unfold poll in *.
    destruct (true && _); cbn [negb] in *; [destruct (_ || _)|]; cbn in *; try discriminate.
    rewrite app_nil_r. auto.
  Qed.

  Lemma cycle_silent t p r hw s0 : hw_silent (fst (update t p r hw s0)).
  Proof.
    unfold hw_silent. destruct (update_decomp t p r hw s0) as (h & _ & ->).
    destruct (sw_do (cm_sw s0)) eqn:Hd; cbn [fst]; [|left; exact Hd].
    destruct (manage_decomp t hw (set_heap s0 h)) as (_ & -> & _). right. reflexivity.
  Qed.
  Lemma mid_silent : ~ no_cycle mid -> hw_silent (reach ls ((ops ++ [sw]) ++ mid)).
  Proof.
    assert (X : forall m s0 tmo' k, cm_call s0 = WaitSwitch tmo' k -> no_reply s0 m -> (hw_silent s0 \/ ~ no_cycle m) -> hw_silent (fst (run s0 m))).
    { clear. induction m as [|o m IH]; intros s0 tmo' k Hc Hn [H|H]; simpl; auto.
      - exfalso; apply H; constructor.
      - destruct Hn as [Ho Hn].
        destruct (no_reply_frame [o] s0 tmo' k Hc) as (_ & _ & _ & _ & _ & _ & Hc1 & _); [simpl; auto|]. simpl in Hc1.
        pose proof (waiting_step s0 o tmo' k Hc Ho) as Hs.
        destruct (step s0 o) as [[s1 e1] ans]; cbn [fst snd] in *.
        assert (Y : hw_silent s1).
        { destruct Hs as [((ls' & ->) & _)|(t & p & r & hw & _ & -> & _)]; [exact H|apply cycle_silent]. }
        specialize (IH s1 tmo' k Hc1 Hn (or_introl Y)). destruct (run s1 m); exact IH.
      - destruct Hn as [Ho Hn].
        destruct (no_reply_frame [o] s0 tmo' k Hc) as (_ & _ & _ & _ & _ & _ & Hc1 & _); [simpl; auto|]. simpl in Hc1.
        pose proof (waiting_step s0 o tmo' k Hc Ho) as Hs.
        destruct (step s0 o) as [[s1 e1] ans]; cbn [fst snd] in *.
        assert (Y : hw_silent s1 \/ ~ no_cycle m).
        { destruct Hs as [(_ & _ & Hnc)|(t & p & r & hw & _ & -> & _)]; [right|left; apply cycle_silent].
          intros Hm. apply H. constructor; [|exact Hm]. destruct o; auto. eapply Hnc; reflexivity. }
        specialize (IH s1 tmo' k Hc1 Hn Y). destruct (run s1 m); exact IH. }
    intros Hc. destruct (accepted_state ls ops Hclean Hidle a b z asap tmo now ck pr Hacc) as (_ & _ & _ & _ & _ & _ & _ & A7 & _).
    fold sw in A7. destruct (reach_app ls (ops ++ [sw]) mid) as [-> _]. eapply X; eauto.
  Qed.

  Lemma timeout_later w ops2 : reply ls ((ops ++ [sw]) ++ mid) (Poll w true true) = ABool false -> no_request ops2 ->
    let o2 := ((ops ++ [sw]) ++ mid) ++ [Poll w true true] in
    (forall c, In c (loaded (trace ls o2)) ->
      phase_of (trace ls (o2 ++ ops2)) (fst c) = PGone \/
      phase_of (trace ls (o2 ++ ops2)) (fst c) = phase_of (trace ls o2) (fst c)) /\
    (~ no_cycle mid -> existsb is_do (emits_all ls o2 ops2) = false).
  Proof.
    cbv zeta. intros H Hr. destruct (timeout_state w H) as (T1 & T2 & T3 & T4 & _).
    destruct (quiet_phases ls _ ops2 T1 T2 T3 Hr) as [Q1 Q2]. split; [exact Q1|].
    intros Hm. apply Q2. unfold hw_silent in *. rewrite T4. apply mid_silent; exact Hm.
  Qed.
End Refused.

(** ** nothing starts unless the hardware reports done *)
Lemma never_done_cycle t p r hw s j : hw_never_done hw -> cm_heap s j <> RUNNING -> cm_heap (fst (update t p r hw s)) j <> RUNNING.
Proof.
  intros [N1 N2] Hj. destruct (update_decomp t p r hw s) as (h & Hh & ->).
  assert (Hj' : h j <> RUNNING) by (rewrite Hh; exact Hj).
  destruct (sw_do (cm_sw s)); cbn [fst]; [|exact Hj'].
  destruct (manage_decomp t hw (set_heap s h)) as (-> & _). cbn [set_heap cm_heap cm_stop].
  destruct (stop_stage t h (cm_stop s)) as (F1 & _).
  destruct (stop_controllers t h (cm_stop s)) as [h1 e1]; cbn [fst] in *.
  assert (Hj1 : h1 j <> RUNNING) by (rewrite F1; destruct (_ && _); [discriminate|exact Hj']).
  assert (Hab : forall h i, h j <> RUNNING -> fst (abort_request t h i) j <> RUNNING).
  { intros h0 i H. unfold abort_request. destruct (h0 i); cbn; auto; unfold upd; destruct (Nat.eqb _ _); auto; discriminate. }
  assert (Hwa : forall h i, h j <> RUNNING -> fst (wait_request t h i) j <> RUNNING).
  { intros h0 i H. unfold wait_request. destruct (h0 i); cbn; auto; unfold upd; destruct (Nat.eqb _ _); auto; discriminate. }
  apply swstate_eqb_false in N1.
  unfold start_stage. cbn [cm_sw cm_list cm_start]. destruct (sw_asap _).
  - unfold start_controllers_asap. rewrite asap_loop_for_each.
    match goal with |- context [for_each ?f ?h ?l] =>
      enough (X : fst (for_each f h l) j <> RUNNING) by (destruct (for_each f h l) as [h2 e2]; exact X) end.
    refine (for_each_ind _ (fun h _ => h j <> RUNNING) _ _ h1 [] Hj1).
    intros [k i] h0 e0 _ H0. unfold asap_outer. cbn [fst snd]. destruct (is_running h0 i); [exact H0|].
    refine (for_each_ind _ (fun h _ => h j <> RUNNING) _ _ h0 e0 H0).
    intros c h2 e2 _ H2. unfold asap_inner. destruct (Nat.eqb i (sp_inst c)); [|exact H2].
    pose proof (N2 k (sp_info c)) as N. apply swstate_eqb_false in N. rewrite N.
    destruct (_ || _); auto.
  - unfold start_controllers. rewrite N1. destruct (_ || _); cbn [fst].
    + refine (for_each_ind _ (fun h _ => h j <> RUNNING) _ _ h1 [] Hj1). intros i h0 e0 _ H0. auto.
    + refine (for_each_ind _ (fun h _ => h j <> RUNNING) _ _ h1 [] Hj1). intros i h0 e0 _ H0. auto.
Qed.

Lemma starts_need_done ls ops t p r hw i : no_abandoned ops -> hw_never_done hw ->
  runs (trace ls (ops ++ [Cycle t p r hw])) i -> runs (trace ls ops) i.
Proof.
  intros Hna Hn Hr. pose proof (inv_reach ls ops) as HI. pose proof (inv2_reach ls ops Hna) as HI2.
  pose proof (inv_reach ls (ops ++ [Cycle t p r hw])) as HI'.
  assert (Er : cm_heap (reach ls (ops ++ [Cycle t p r hw])) = cm_heap (fst (update t p r hw (reach ls ops)))).
  { destruct (reach_snoc ls ops (Cycle t p r hw)) as [-> _]. unfold step. destruct (update t p r hw (reach ls ops)); reflexivity. }
  assert (Hh : cm_heap (reach ls (ops ++ [Cycle t p r hw])) i = RUNNING).
  { rewrite (inv_sim _ _ HI'); rewrite Hr; [reflexivity|discriminate]. }
  rewrite Er in Hh.
  assert (Hg : phase_of (trace ls ops) i <> PGone).
  { intros Hg. assert (Hno : ~ In i (map sp_inst (cm_list (reach ls ops)))).
    { intros Hin. apply in_map_iff in Hin as (c & <- & Hc). destruct (inv_live _ _ HI c Hc); congruence. }
    destruct (update_phase_other t p r hw (reach ls ops) (trace ls ops) i HI (inv_start _ _ HI2) (inv_stop _ _ HI2) Hno) as [_ Hev].
    rewrite trace_snoc in Hr. unfold emits, step in Hr.
    assert (X : phase_of (trace ls ops ++ snd (update t p r hw (reach ls ops))) i = phase_of (trace ls ops) i)
      by (apply phase_no_cb; [apply update_cyc|exact Hev]).
    unfold runs in Hr. destruct (update t p r hw (reach ls ops)); cbn [fst snd] in *. congruence. }
  destruct (phase_of (trace ls ops) i) eqn:Ep; try (exfalso; revert Hh; apply never_done_cycle; [exact Hn|];
    rewrite (inv_sim _ _ HI), Ep by congruence; discriminate); try congruence.
Qed.

(** ** the lists given to the hooks *)
Lemma names_inj tr i a j b : NoDup (map (fun c => ci_name (snd c)) (loaded tr)) ->
  In (i, a) (loaded tr) -> In (j, b) (loaded tr) -> ci_name a = ci_name b -> (i, a) = (j, b).
Proof. intros H H1 H2 E. eapply (nodup_map_inj (fun c : nat * cinfo => ci_name (snd c))); eauto. Qed.

Lemma start_stop_disjoint tr a b x : NoDup (map (fun c => ci_name (snd c)) (loaded tr)) ->
  In x (to_start tr a) -> In x (to_stop tr b) -> False.
Proof.
  intros Hn H1 H2. unfold to_start, to_stop in *.
  apply in_map_iff in H1 as ([i x1] & E1 & H1). apply in_map_iff in H2 as ([j x2] & E2 & H2). cbn in E1, E2. subst x1 x2.
  apply filter_In in H1 as [H1 F1]. apply filter_In in H2 as [H2 F2].
  assert (E : (i, x) = (j, x)) by (eapply names_inj; eauto). injection E as <-. cbn in F1, F2.
  apply andb_true_iff in F1 as [_ F1]. apply andb_true_iff in F2 as [_ F2]. rewrite F2 in F1. discriminate.
Qed.

Lemma nodup_map_of {A B C} (f : A -> B) (g : B -> C) l : NoDup (map (fun x => g (f x)) l) -> NoDup (map f l).
Proof. rewrite <- (map_map f g). apply NoDup_map_inv. Qed.

Lemma hook_lists ls ops o x y ok : no_abandoned ops -> In (EvPrepare x y ok) (emits ls ops o) ->
  let tr := trace ls ops in
  (exists startn stopn,
     ((exists z asap tmo now ck pr, o = Switch startn stopn z asap tmo now ck pr) \/
      (exists f now ck pr, o = Reload f now ck pr /\ startn = [] /\ stopn = map (fun c => ci_name (snd c)) (loaded tr))) /\
     x = to_start tr startn /\ y = to_stop tr stopn) /\
  NoDup x /\ NoDup y /\ forall c, In c x -> In c y -> False.
Proof.
  intros Hna Hin. cbv zeta.
  pose proof (inv_reach ls ops) as HI. pose proof (inv2_reach ls ops Hna) as HI2.
  pose proof (names_distinct _ (trace_ok1 ls ops)) as Hnm.
  assert (Hn : forall (f : nat * cinfo -> bool), NoDup (map snd (filter f (loaded (trace ls ops))))).
  { intros f. apply (nodup_map_of snd ci_name). apply nodup_map_filter. exact Hnm. }
  assert (Hfin : forall startn stopn, NoDup (to_start (trace ls ops) startn) /\ NoDup (to_stop (trace ls ops) stopn) /\
             forall c, In c (to_start (trace ls ops) startn) -> In c (to_stop (trace ls ops) stopn) -> False).
  { intros startn stopn. split; [apply Hn|]. split; [apply Hn|]. intros c. apply start_stop_disjoint; exact Hnm. }
  unfold emits in Hin. destruct (cm_call (reach ls ops)) as [|tmo' k] eqn:Hc.
  - destruct (inv_idle _ _ HI2 Hc) as [E1 E2].
    assert (Hsw : forall a b z asap tmo now ck pr k,
       In (EvPrepare x y ok) (snd (fst (switch_begin a b z asap tmo now ck pr k (reach ls ops)))) ->
       x = to_start (trace ls ops) a /\ y = to_stop (trace ls ops) b).
    { intros a b z asap tmo now ck pr k Hp.
      destruct (switch_begin_spec _ _ HI a b z asap tmo now ck pr k E1 E2) as (s' & _ & H).
      destruct (_ && _); destruct H as (H & _); rewrite H in Hp; [destruct Hp as [[= -> -> _]|[]]; auto|contradiction]. }
    destruct o as [n env|n|a b z asap tmo now ck pr|w o1 o2|t p r hw| | |force now ck pr|l].
    + exfalso. unfold step in Hin; rewrite Hc in Hin. destruct (load_frame n env (reach ls ops)) as (_ & _ & _ & _ & _ & _ & _ & _ & F).
      destruct (load_controller n env _) as [[? ?] ?]; cbn [fst snd] in *. rewrite Forall_forall in F. apply (F _ Hin).
    + exfalso. unfold step in Hin; rewrite Hc in Hin. destruct (unload_frame n (reach ls ops)) as (_ & _ & _ & _ & _ & _ & _ & _ & F).
      destruct (unload_controller n _) as [[? ?] ?]; cbn [fst snd] in *. rewrite Forall_forall in F. apply (F _ Hin).
    + unfold step in Hin; rewrite Hc in Hin. specialize (Hsw a b z asap tmo now ck pr KReturn).
      destruct (switch_begin _ _ _ _ _ _ _ _ _ _) as [[? ?] ?]; cbn [fst snd] in *. destruct (Hsw Hin) as [-> ->].
      split; [|apply Hfin]. exists a, b. split; [left; eauto 10|auto].
    + exfalso. unfold step in Hin; rewrite Hc in Hin. contradiction.
    + exfalso. unfold step in Hin. pose proof (update_cyc t p r hw (reach ls ops)) as F. destruct (update t p r hw _); cbn [fst snd] in *.
      rewrite Forall_forall in F. apply (F _ Hin).
    + exfalso. unfold step in Hin; rewrite Hc in Hin. contradiction.
    + exfalso. unfold step in Hin; rewrite Hc in Hin. contradiction.
    + unfold step in Hin; rewrite Hc in Hin.
      assert (Hnames : controller_names (reach ls ops) = map (fun c => ci_name (snd c)) (loaded (trace ls ops))).
      { unfold controller_names. rewrite <- (inv_list _ _ HI), map_map. reflexivity. }
      destruct (controller_names (reach ls ops)) eqn:En.
      * exfalso. destruct (reload_tail_frame [] (reach ls ops)) as (_ & _ & _ & _ & _ & _ & _ & _ & F).
        rewrite Forall_forall in F. apply (F _ Hin).
      * destruct (negb force); [contradiction|].
        specialize (Hsw [] (s :: l) BEST_EFFORT false 0 now ck pr (KReload (s :: l))).
        destruct (switch_begin _ _ _ _ _ _ _ _ _ _) as [[? ?] ?]; cbn [fst snd] in *. destruct (Hsw Hin) as [-> ->].
        split; [|apply Hfin]. exists [], (s :: l). split; [|auto]. right. eauto 10.
    + contradiction.
  - exfalso. destruct o as [n env|n|a b z asap tmo now ck pr|w o1 o2|t p r hw| | |force now ck pr|l];
    unfold step in Hin; rewrite ?Hc in Hin; try contradiction.
    + unfold poll in Hin. destruct (_ && _); [destruct (negb _); [|destruct (_ || _)]|]; try contradiction;
      match type of Hin with In _ (snd (fst (switch_return ?b ?c ?k ?s))) =>
        destruct (switch_return_frame b c k s) as (_ & _ & _ & _ & _ & _ & _ & _ & F) end; rewrite Forall_forall in F; apply (F _ Hin).
    + pose proof (update_cyc t p r hw (reach ls ops)) as F. destruct (update t p r hw _); cbn [fst snd] in *.
      rewrite Forall_forall in F. apply (F _ Hin).
Qed.

(** ** reloading libraries *)
Lemma unload_all_list names : forall s s' e, unload_all names s = (s', e, true) ->
  cm_list s' = filter (fun c => negb (existsb (String.eqb (name_of c)) names)) (cm_list s).
Proof.
  induction names as [|n names IH]; intros s s' e; simpl.
  - intros [= <- <-]. clear. induction (cm_list s); simpl; congruence.
  - unfold unload_controller. destruct (unload_scan _ _ _) as [[to [|]]|] eqn:E; try discriminate.
    apply unload_scan_spec in E as (-> & _ & _).
    destruct (unload_all names _) as [[s2 e2] ok] eqn:E2. intros [= <- <- ->].
    rewrite (IH _ _ _ E2). cbn [set_list cm_list]. rewrite filter_twice. apply filter_ext. intros c.
    destruct (String.eqb (name_of c) n); reflexivity.
Qed.

Lemma filter_none {A} (f : A -> bool) l : (forall x, In x l -> f x = false) -> filter f l = [].
Proof.
  induction l as [|x l IH]; simpl; intros H; [reflexivity|]. rewrite (H x (or_introl eq_refl)). apply IH. intros; apply H; auto.
Qed.

Lemma reload_tail_empty s s' e ans : reload_tail (controller_names s) s = (s', e, ans) ->
  ans <> AAssert /\ (ans = ABool true -> cm_list s' = [] /\ exists e1, e = e1 ++ map EvReload (seq 0 (length (cm_loaders s))) /\
     Forall (fun x => match x with EvDestroyed _ => True | _ => False end) e1).
Proof.
  unfold reload_tail. destruct (unload_all_frame (controller_names s) s) as (_ & _ & _ & _ & _ & _ & El & _ & F).
  destruct (unload_all (controller_names s) s) as [[s1 e1] ok] eqn:E. cbn [fst snd] in *. destruct ok.
  - assert (Hl : cm_list s1 = []).
    { rewrite (unload_all_list _ _ _ _ E). apply filter_none. intros c Hc. apply negb_false_iff. apply existsb_exists.
      exists (name_of c). split; [|apply String.eqb_refl]. unfold controller_names. apply in_map_iff. exists c; auto. }
    rewrite Hl. intros [= <- <- <-]. split; [discriminate|]. intros _. split; [exact Hl|].
    exists e1. split; [|exact F]. f_equal. rewrite El. clear. generalize 0%nat. induction (cm_loaders s); intros k; simpl; [reflexivity|].
    f_equal. auto.
  - intros [= <- <- <-]. split; [discriminate|discriminate].
Qed.

Lemma no_assert ls ops o : reply ls ops o <> AAssert.
Proof.
  pose proof (inv_reach ls ops) as HI. unfold reply. set (s := reach ls ops) in *.
  destruct o as [n env|n|a b z asap tmo now ck pr|w o1 o2|t p r hw| | |force now ck pr|l]; unfold step;
  try (destruct (update t p r hw s); discriminate); try discriminate;
  destruct (cm_call s) as [|tmo' k] eqn:Hc; try discriminate.
  - destruct (load_controller n env s) as [[? ?] ?]; discriminate.
  - destruct (unload_controller n s) as [[? ?] ?]; discriminate.
  - destruct (switch_begin _ _ _ _ _ _ _ _ _ _) as [[? ?] [|]]; discriminate.
  - unfold poll. assert (X : forall b c, snd (switch_return b c k s) <> AAssert).
    { intros b c. unfold switch_return. destruct k as [|names]; [discriminate|]. destruct b; [|discriminate].
      rewrite (inv_reload _ _ HI _ _ Hc). set (s1 := set_switch _ _ _ _ _ _ _).
      change (controller_names s) with (controller_names s1).
      destruct (reload_tail (controller_names s1) s1) as [[s' e] ans] eqn:E. apply (reload_tail_empty _ _ _ _ E). }
    destruct (_ && _); [destruct (negb _); [|destruct (_ || _)]|]; try apply X. discriminate.
  - destruct (controller_names s) eqn:En.
    + destruct (reload_tail [] s) as [[s' e] ans] eqn:E. rewrite <- En in E. apply (reload_tail_empty _ _ _ _ E).
    + destruct (negb force); [discriminate|]. destruct (switch_begin _ _ _ _ _ _ _ _ _ _) as [[? ?] [|]]; discriminate.
Qed.

Lemma run_cons s o m : run s (o :: m) =
  (fst (run (fst (fst (step s o))) m), snd (fst (step s o)) ++ snd (run (fst (fst (step s o))) m)).
Proof. simpl. destruct (step s o) as [[s1 e1] ans]. cbn [fst snd]. destruct (run s1 m); reflexivity. Qed.

Section Reload.
  Variables (ls : list loader) (ops : list op).
  Hypothesis Hidle : idle ls ops.
  Variables (force : bool) (now : Z) (ck : list cinfo -> bool) (pr : list cinfo -> list cinfo -> bool).
  Let rl := Reload force now ck pr.

  Lemma reload_refused : force = false -> loaded (trace ls ops) <> [] ->
    reply ls ops rl = ABool false /\ reach ls (ops ++ [rl]) = reach ls ops /\ emits ls ops rl = [].
  Proof.
    intros -> Hl. destruct (reach_snoc ls ops rl) as [-> _]. unfold reply, emits, rl, step.
    assert (Hc : cm_call (reach ls ops) = Idle) by exact Hidle. rewrite Hc.
    destruct (controller_names (reach ls ops)) eqn:En; [|auto].
    exfalso. apply Hl. rewrite <- (inv_list _ _ (inv_reach ls ops)). unfold controller_names in En.
    destruct (cm_list (reach ls ops)); [reflexivity|discriminate].
  Qed.

  Lemma reload_empty : loaded (trace ls ops) = [] ->
    reply ls ops rl = ABool true /\ emits ls ops rl = map EvReload (seq 0 (length (registered ls ops))).
  Proof.
    intros Hl. unfold reply, emits, rl, step.
    assert (Hc : cm_call (reach ls ops) = Idle) by exact Hidle. rewrite Hc.
    rewrite <- (inv_list _ _ (inv_reach ls ops)) in Hl. apply map_eq_nil in Hl.
    unfold controller_names. rewrite Hl. cbn [map]. unfold reload_tail. cbn [unload_all]. rewrite Hl. cbn [fst snd app].
    split; [reflexivity|]. rewrite <- loaders_reach. generalize 0%nat. induction (cm_loaders (reach ls ops)); intros k; simpl; [reflexivity|].
    f_equal. auto.
  Qed.

  Variable mid : list op.
  Hypothesis Hclean : no_abandoned ops.
  Hypothesis Hacc : reply ls ops rl = ANone.
  Hypothesis Hwait : still_waiting ls (ops ++ [rl]) mid.
  Let o2 := (ops ++ [rl]) ++ mid.

  Lemma reload_frame :
    force = true /\ cm_list (reach ls o2) = cm_list (reach ls ops) /\ cm_start (reach ls o2) = [] /\
    (exists names tmo, cm_call (reach ls o2) = WaitSwitch tmo (KReload names)) /\
    Forall (fun e => match e with EvCb _ CbWaiting _ | EvCb _ CbAborting _ => False | _ => True end)
           (emits_all ls ops (rl :: mid)).
  Proof.
    assert (Hc : cm_call (reach ls ops) = Idle) by exact Hidle.
    pose proof (inv_reach ls ops) as HI. pose proof (inv2_reach ls ops Hclean) as HI2.
    destruct (inv_idle _ _ HI2 Hc) as [E1 E2].
    assert (Hs : let x := step (reach ls ops) rl in
      force = true /\ cm_list (fst (fst x)) = cm_list (reach ls ops) /\ cm_start (fst (fst x)) = [] /\
      (exists names tmo, cm_call (fst (fst x)) = WaitSwitch tmo (KReload names)) /\ Forall no_cb (snd (fst x))).
    { cbv zeta.
      assert (Hnc : Forall no_cb (snd (fst (step (reach ls ops) rl)))) by (apply step_no_cb; discriminate).
      unfold reply in Hacc. revert Hacc Hnc. unfold rl, step. rewrite Hc.
      destruct (controller_names (reach ls ops)) eqn:En.
      { unfold reload_tail. cbn [unload_all]. destruct (cm_list (reach ls ops)) eqn:El; cbn [snd]; discriminate. }
      destruct force; cbn [negb]; [|discriminate].
      destruct (switch_begin_spec _ _ HI [] (s :: l) BEST_EFFORT false 0 now ck pr (KReload (s :: l)) E1 E2) as (s' & Es & H).
      destruct (switch_begin_frame [] (s :: l) BEST_EFFORT false 0 now ck pr (KReload (s :: l)) (reach ls ops)) as (F1 & F2 & _).
      destruct (switch_begin _ _ _ _ _ _ _ _ _ _) as [[s1 e1] ok]; cbn [fst snd] in *; subst s'.
      destruct ok; [intros _ Hnc|discriminate].
      destruct (_ && _); [|destruct H as (_ & X & _); discriminate].
      destruct H as (_ & Hp & _ & _ & H); rewrite <- Hp in H; destruct H as (H1 & H2 & H3 & H4).
      split; [reflexivity|]. split; [exact F1|]. split; [first [exact H1|exact H2|exact H3]|]. split; [eauto|exact Hnc]. }
    cbv zeta in Hs. destruct Hs as (S1 & S2 & S3 & (names & tmo & S4) & S5).
    destruct (reach_snoc ls ops rl) as [Er _]. unfold still_waiting in Hwait. rewrite Er in Hwait.
    assert (Eo : reach ls o2 = fst (run (fst (fst (step (reach ls ops) rl))) mid)).
    { unfold o2. destruct (reach_app ls (ops ++ [rl]) mid) as [-> _]. rewrite Er. reflexivity. }
    assert (Ee : emits_all ls ops (rl :: mid) = snd (fst (step (reach ls ops) rl)) ++ snd (run (fst (fst (step (reach ls ops) rl))) mid)).
    { unfold emits_all. rewrite run_cons. reflexivity. }
    rewrite Eo, Ee. clear Eo Ee.
    destruct (step (reach ls ops) rl) as [[s1 e1] ans]; cbn [fst snd] in *.
    destruct (no_reply_frame mid s1 tmo (KReload names) S4 Hwait) as (B1 & _ & B3 & _ & _ & _ & B7 & _).
    split; [exact S1|]. rewrite B1, B3. split; [exact S2|]. split; [exact S3|]. split; [eauto|].
    assert (X : Forall (fun e => match e with EvCb _ CbWaiting _ | EvCb _ CbAborting _ => False | _ => True end) (snd (run s1 mid))).
    { clear - S3 S4 Hwait. revert s1 S3 S4 Hwait. induction mid as [|o m IH]; intros s1 S3 S4 Hn; simpl; [constructor|]. destruct Hn as [Ho Hn].
      pose proof (waiting_step s1 o _ _ S4 Ho) as Hw.
      destruct (no_reply_frame [o] s1 tmo (KReload names) S4) as (_ & _ & C3 & _ & _ & _ & C7 & _); [simpl; auto|]. simpl in C3, C7.
      destruct (step s1 o) as [[s3 e3] ans]; cbn [fst snd] in *. rewrite S3 in C3.
      specialize (IH s3 C3 C7 Hn). destruct (run s3 m) as [s4 e4]; cbn [fst snd] in *.
      apply Forall_app; split; [|exact IH].
      destruct Hw as [(_ & -> & _)|(t & p & r & hw & _ & _ & ->)]; [constructor|].
      destruct (update_decomp t p r hw s1) as (h & _ & ->).
      set (G := fun e => match e with EvCb _ CbWaiting _ | EvCb _ CbAborting _ => False | _ => True end).
      assert (G0 : Forall G ((if r then reset_events t (cm_heap s1) (cm_list s1) else []) ++ upd_events t p (cm_heap s1) (cm_list s1))).
      { apply Forall_app; split.
        - destruct r; [|constructor]. unfold reset_events. apply Forall_forall. intros e He.
          apply in_flat_map in He as (c & Hc & [<-|[<-|[]]]); exact I.
        - unfold upd_events. apply Forall_forall. intros e He. apply in_map_iff in He as (c & <- & Hc). exact I. }
      destruct (sw_do (cm_sw s1)); cbn [fst snd]; [|exact G0]. apply Forall_app; split; [exact G0|].
      destruct (manage_decomp t hw (set_heap s1 h)) as (_ & _ & ->). apply Forall_app; split; [unfold hwdo; destruct (sw_started _); repeat constructor|].
      apply Forall_app; split.
      - destruct (stop_stage t (cm_heap (set_heap s1 h)) (cm_stop (set_heap s1 h))) as (_ & _ & F). eapply Forall_impl; [|exact F]. intros e (i & -> & _). exact I.
      - match goal with |- Forall G (snd (fst (start_stage ?t ?hw ?s ?h))) => pose proof (start_stage_events t hw s h) as F end.
        cbn [set_heap cm_start] in F. rewrite S3 in F. eapply Forall_impl; [|exact F]. intros e (i & c & _ & []). }
    destruct (run s1 mid) as [s3 e3]; cbn [fst snd] in *. apply Forall_app; split; [|exact X].
    eapply Forall_impl; [|exact S5]. intros []; simpl; auto; contradiction.
  Qed.

  Lemma stopped_between tr e i : runs tr i -> ~ runs (tr ++ e) i ->
    Forall (fun x => match x with EvCb _ CbWaiting _ | EvCb _ CbAborting _ => False | EvDestroyed j => j <> i | EvLoaded j _ => j <> i | _ => True end) e ->
    exists t, In (EvCb i CbStopping t) e.
  Proof.
    revert tr. induction e as [|x e IH]; intros tr R N F; [rewrite app_nil_r in N; contradiction|].
    inversion F as [|? ? Fx Fe]; subst.
    replace (tr ++ x :: e) with ((tr ++ [x]) ++ e) in N by (rewrite <- app_assoc; reflexivity).
    destruct (phase_eqb (phase_of (tr ++ [x]) i) PStarted) eqn:Ep.
    - destruct (IH (tr ++ [x])) as (t & Ht); auto.
      + unfold runs. destruct (phase_of (tr ++ [x]) i); simpl in Ep; congruence.
      + exists t; right; exact Ht.
    - rewrite phase_snoc in Ep. unfold runs in R. rewrite R in Ep.
      destruct x as [j c t|j y|j| | | |]; simpl in *; try discriminate.
      + destruct c; try contradiction; destruct (Nat.eqb_spec i j) as [->|]; simpl in Ep; try discriminate. exists t; left; reflexivity.
      + destruct (Nat.eqb_spec i j); [congruence|discriminate].
      + destruct (Nat.eqb_spec i j); [congruence|discriminate].
  Qed.

  Lemma reload_true w k1 k2 : reply ls o2 (Poll w k1 k2) = ABool true ->
    let o3 := o2 ++ [Poll w k1 k2] in
    loaded (trace ls o3) = [] /\
    (exists e1, emits ls o2 (Poll w k1 k2) = e1 ++ map EvReload (seq 0 (length (registered ls o2))) /\
       Forall (fun x => match x with EvDestroyed _ => True | _ => False end) e1) /\
    (forall i, runs (trace ls ops) i -> exists t, In (EvCb i CbStopping t) (emits_all ls ops (rl :: mid))).
  Proof.
    cbv zeta. destruct reload_frame as (F1 & F2 & F3 & (names & tmo & F4) & F5).
    intros H. unfold reply in H.
    pose proof (inv_reach ls o2) as HI. pose proof (inv_reach ls (o2 ++ [Poll w k1 k2])) as HI3.
    assert (X : exists s' e, reload_tail (controller_names (set_switch (reach ls o2) (cm_sw (reach ls o2)) [] [] (cm_hwstart (reach ls o2)) (cm_hwstop (reach ls o2)) Idle))
                      (set_switch (reach ls o2) (cm_sw (reach ls o2)) [] [] (cm_hwstart (reach ls o2)) (cm_hwstop (reach ls o2)) Idle) = (s', e, ABool true)
                /\ emits ls o2 (Poll w k1 k2) = e /\ reach ls (o2 ++ [Poll w k1 k2]) = s').
    { destruct (reach_snoc ls o2 (Poll w k1 k2)) as [Er _]. rewrite Er. unfold emits. unfold step in *. rewrite F4 in *. unfold poll in *.
      destruct (k1 && _); [destruct (negb k2); [cbn in H; discriminate|destruct (_ || _); cbn in H; discriminate]|].
      unfold switch_return in *. rewrite (inv_reload _ _ HI _ _ F4) in *.
      set (s1 := set_switch _ _ _ _ _ _ _) in *. change (controller_names (reach ls o2)) with (controller_names s1) in *.
      destruct (reload_tail (controller_names s1) s1) as [[s' e] ans]; cbn [fst snd] in *. subst ans. eauto. }
    destruct X as (s' & e & X1 & X2 & X3).
    destruct (reload_tail_empty _ _ _ _ X1) as (_ & Y). destruct (Y eq_refl) as (Y1 & e1 & Y2 & Y3). clear Y.
    split; [rewrite <- (inv_list _ _ HI3), X3, Y1; reflexivity|]. split.
    - exists e1. rewrite X2, Y2. split; [|exact Y3]. cbn [set_switch cm_loaders]. rewrite loaders_reach. reflexivity.
    - intros i Ri.
      (* i is loaded; it is destroyed at the end, hence not running then *)
      assert (Hil : In i (map sp_inst (cm_list (reach ls ops)))).
      { apply (inv_conv _ _ (inv2_reach ls ops Hclean)); rewrite Ri; discriminate. }
      assert (Ht2 : trace ls o2 = trace ls ops ++ emits_all ls ops (rl :: mid)).
      { unfold o2, emits_all. rewrite <- app_assoc. apply (proj2 (reach_app ls ops (rl :: mid))). }
      assert (Hil2 : In i (map fst (loaded (trace ls o2)))).
      { rewrite <- (inv_list _ _ HI), map_map, F2. exact Hil. }
      assert (Hnr : ~ runs (trace ls o2) i).
      { intros R2. pose proof (trace_snoc ls o2 (Poll w k1 k2)) as Et. rewrite X2, Y2 in Et.
        assert (Hl0 : loaded (trace ls (o2 ++ [Poll w k1 k2])) = []) by (rewrite <- (inv_list _ _ HI3), X3, Y1; reflexivity).
        (* find the destruction of i *)
        assert (Hde : In (EvDestroyed i) e1).
        { destruct (in_dec Nat.eq_dec i (flat_map (fun x => match x with EvDestroyed j => [j] | _ => [] end) e1)) as [Hy|Hn].
          - apply in_flat_map in Hy as (x & Hx & Hj). destruct x; try contradiction. destruct Hj as [->|[]]. exact Hx.
          - exfalso. rewrite Et, loaded_app in Hl0.
            assert (Z : forall (es : list event) l, In i (map fst l) -> ~ In i (flat_map (fun x => match x with EvDestroyed j => [j] | _ => [] end) es) ->
                       In i (map fst (fold_left loaded_step es l))).
            { clear. induction es as [|x es IH]; intros l Hl Hn; simpl; [exact Hl|]. simpl in Hn. rewrite in_app_iff in Hn.
              apply IH; [|tauto]. destruct x as [j c t|j y|j| | | |]; simpl in *; auto.
              - rewrite map_app, in_app_iff. auto.
              - apply in_map_iff in Hl as (c & <- & Hc). apply in_map_iff. exists c. split; [reflexivity|].
                apply filter_In. split; [exact Hc|]. apply negb_true_iff. apply Nat.eqb_neq. intros E; apply Hn; auto. }
            specialize (Z (e1 ++ map EvReload (seq 0 (length (cm_loaders (set_switch (reach ls o2) (cm_sw (reach ls o2)) [] [] (cm_hwstart (reach ls o2)) (cm_hwstop (reach ls o2)) Idle))))) (loaded (trace ls o2)) Hil2).
            rewrite Hl0 in Z. apply Z. rewrite flat_map_app, in_app_iff. intros [|Hx]; [contradiction|].
            apply in_flat_map in Hx as (x & Hx & Hj). apply in_map_iff in Hx as (k & <- & _). contradiction. }
        apply in_split in Hde as (d1 & d2 & ->).
        rewrite <- app_assoc in Et. cbn [app] in Et. rewrite app_assoc in Et.
        pose proof (trace_ok1_at ls _ _ _ _ Et) as [_ Hok]. apply Hok.
        (* phase of i not changed by d1, which only contains destructions of others *)
        unfold runs. rewrite phase_app. unfold runs in R2. rewrite R2.
        assert (Hd1 : ~ In (EvDestroyed i) d1).
        { intros Hd. apply in_split in Hd as (g1 & g2 & ->).
          rewrite <- app_assoc in Et. cbn [app] in Et. rewrite <- app_assoc in Et. cbn [app] in Et. 
          pose proof (trace_ok1_at ls (o2 ++ [Poll w k1 k2]) ((trace ls o2 ++ g1) ++ EvDestroyed i :: g2) (EvDestroyed i)) as Q.
          specialize (Q (d2 ++ map EvReload (seq 0 (length (cm_loaders (set_switch (reach ls o2) (cm_sw (reach ls o2)) [] [] (cm_hwstart (reach ls o2)) (cm_hwstop (reach ls o2)) Idle)))))).
          assert (Q' : ok1 ((trace ls o2 ++ g1) ++ EvDestroyed i :: g2) (EvDestroyed i)) by (apply Q; rewrite Et, <- !app_assoc; reflexivity).
          destruct Q' as [Q1 _].
          revert Q1. rewrite loaded_app. simpl.
          assert (Z : forall (es : list event) l, Forall (fun x => match x with EvDestroyed _ => True | _ => False end) es -> ~ In i (map fst l) -> ~ In i (map fst (fold_left loaded_step es l))).
          { clear. induction es as [|x es IH]; intros l Hf Hl; simpl; [exact Hl|]. inversion Hf; subst. apply IH; [assumption|].
            destruct x; try contradiction. simpl. intros Hin. apply Hl. apply in_map_iff in Hin as (c & <- & Hc). apply filter_In in Hc as [Hc _]. apply in_map; exact Hc. }
          apply Z.
          - apply Forall_app in Y3 as [Y3 _]. apply Forall_app in Y3 as [_ Y3]. inversion Y3; assumption.
          - intros Hin. apply in_map_iff in Hin as (c & <- & Hc). apply filter_In in Hc as [_ Hc]. rewrite Nat.eqb_refl in Hc. discriminate. }
        apply Forall_app in Y3 as [Y3 _]. clear - Y3 Hd1. induction d1 as [|x d1 IH]; simpl; [reflexivity|].
        inversion Y3; subst. destruct x; try contradiction. simpl.
        destruct (Nat.eqb_spec i i0) as [->|]; [exfalso; apply Hd1; left; reflexivity|]. apply IH; [assumption|]. intros Hx; apply Hd1; right; exact Hx. }
      rewrite Ht2 in Hnr. apply (stopped_between (trace ls ops)); auto.
      (* no load or destruction of i in between *)
      clear - F5 Hacc Hwait Hidle Hil Ri Hclean.
      assert (Hc : Forall (fun e => match e with EvLoaded _ _ | EvDestroyed _ => False | _ => True end) (emits_all ls ops (rl :: mid))).
      { unfold emits_all. rewrite run_cons. unfold still_waiting in Hwait. destruct (reach_snoc ls ops rl) as [Er _]. rewrite Er in Hwait.
        assert (Hx : (exists names tmo, cm_call (fst (fst (step (reach ls ops) rl))) = WaitSwitch tmo (KReload names)) /\
                     Forall (fun e => match e with EvLoaded _ _ | EvDestroyed _ => False | _ => True end) (snd (fst (step (reach ls ops) rl)))).
        { unfold reply in Hacc. revert Hacc. unfold rl, step. assert (Hc : cm_call (reach ls ops) = Idle) by exact Hidle. rewrite Hc.
          destruct (controller_names (reach ls ops)) eqn:En.
          { unfold reload_tail. cbn [unload_all]. destruct (cm_list (reach ls ops)); cbn [snd]; discriminate. }
          destruct (negb force); [discriminate|].
          destruct (switch_begin_cases [] (s :: l) BEST_EFFORT false 0 now ck pr (KReload (s :: l)) (reach ls ops)) as (_ & _ & Hs).
          destruct (switch_begin _ _ _ _ _ _ _ _ _ _) as [[s1 e1] ok]; cbn [fst snd] in *.
          destruct ok; [intros _|discriminate]. destruct Hs as [(X & _)|(_ & z & _ & X2 & X3)]; [discriminate|].
          split; [eauto|]. rewrite X3. repeat constructor. }
        destruct Hx as ((names & tmo & Hx1) & Hx2).
        destruct (step (reach ls ops) rl) as [[s1 e1] ans]; cbn [fst snd] in *.
        destruct (no_reply_frame mid s1 tmo (KReload names) Hx1 Hwait) as (_ & _ & _ & _ & _ & _ & _ & _ & _ & _ & _ & C).
        destruct (run s1 mid) as [s3 e3]; cbn [fst snd] in *. apply Forall_app; split; [exact Hx2|].
        eapply Forall_impl; [|exact C]. intros []; simpl; auto. }
      rewrite Forall_forall in *. intros x Hx. specialize (F5 x Hx). specialize (Hc x Hx).
      destruct x as [j c t|j y|j| | | |]; auto; contradiction.
  Qed.
End Reload.
