(** Switch requests: acceptance, refusal, waiting. *)
From Verif Require Import HwTypes Lifecycle CMModel CMSpec CMInv CMTrace CMCycle.

Lemma map_snd_filter (f : nat * cinfo -> bool) (g : cspec -> bool) (l : list cspec) :
  (forall c, In c l -> f (sp_inst c, sp_info c) = g c) ->
  map snd (filter f (map (fun c => (sp_inst c, sp_info c)) l)) = map sp_info (filter g l).
Proof.
  induction l as [|c l IH]; intros H; simpl; [reflexivity|].
  rewrite H by (left; reflexivity). destruct (g c); simpl; rewrite IH by (intros; apply H; right; assumption); reflexivity.
Qed.

Section Accept.
  Variables (s : cm) (tr : list event).
  Hypothesis HI : Inv s tr.
  Variables (startn stopn : list string).
  Let startr := resolve (cm_list s) startn.
  Let stopr := resolve (cm_list s) stopn.

  Lemma mem_named names c : In c (cm_list s) ->
    mem (sp_inst c) (resolve (cm_list s) names) = named names (sp_inst c, sp_info c).
  Proof. intros Hc. rewrite resolve_mem; [reflexivity|apply HI..|exact Hc]. Qed.

  Lemma would_run_eq :
    map sp_info (filter (fun c => mem (sp_inst c) startr || (is_running (cm_heap s) (sp_inst c) && negb (mem (sp_inst c) stopr))) (cm_list s))
    = would_run tr startn stopn.
  Proof.
    unfold would_run. rewrite <- (inv_list _ _ HI). symmetry. apply map_snd_filter. intros c Hc.
    unfold startr, stopr. rewrite !mem_named by assumption. rewrite (inv_running _ _ _ HI Hc). reflexivity.
  Qed.
  Lemma to_start_eq :
    map sp_info (filter (fun c => mem (sp_inst c) startr && negb (is_running (cm_heap s) (sp_inst c))) (cm_list s))
    = to_start tr startn.
  Proof.
    unfold to_start. rewrite <- (inv_list _ _ HI). symmetry. apply map_snd_filter. intros c Hc.
    unfold startr. rewrite !mem_named by assumption. rewrite (inv_running _ _ _ HI Hc). reflexivity.
  Qed.
  Lemma to_stop_eq :
    map sp_info (filter (fun c => mem (sp_inst c) stopr && is_running (cm_heap s) (sp_inst c)) (cm_list s))
    = to_stop tr stopn.
  Proof.
    unfold to_stop. rewrite <- (inv_list _ _ HI). symmetry. apply map_snd_filter. intros c Hc.
    unfold stopr. rewrite !mem_named by assumption. rewrite (inv_running _ _ _ HI Hc). reflexivity.
  Qed.

  Definition all_known (names : list string) : bool :=
    forallb (fun n => existsb (String.eqb n) (map name_of (cm_list s))) names.

  Lemma all_known_spec names : all_known names = true <-> forall n, In n names -> known tr n.
  Proof.
    unfold all_known. rewrite forallb_forall. split; intros H n Hn; specialize (H n Hn).
    - apply existsb_exists in H as (m & Hm & E). apply String.eqb_eq in E; subst.
      apply (known_names _ _ _ HI); exact Hm.
    - apply existsb_exists. exists n. split; [apply (known_names _ _ _ HI); exact H|apply String.eqb_refl].
  Qed.

  Definition is_strict (strictness : Z) : bool := (if strictness =? 0 then BEST_EFFORT else strictness) =? STRICT.

  Definition valid (strict : bool) : bool :=
    negb (strict && negb (all_known stopn)) && negb (strict && negb (all_known startn)) &&
    negb (existsb (scan_bad strict (cm_heap s) startr stopr) (cm_list s)).

  Lemma valid_strict : valid true = true <->
    (forall n, In n startn \/ In n stopn -> known tr n) /\
    (forall c, In c (loaded tr) -> named stopn c = true -> runs tr (fst c)) /\
    (forall c, In c (loaded tr) -> named startn c = true -> ~ runs tr (fst c)).
  Proof.
    unfold valid. simpl. rewrite !negb_involutive, !andb_true_iff, !all_known_spec, negb_true_iff.
    assert (E : existsb (scan_bad true (cm_heap s) startr stopr) (cm_list s) = false <->
                (forall c, In c (loaded tr) -> named stopn c = true -> runs tr (fst c)) /\
                (forall c, In c (loaded tr) -> named startn c = true -> ~ runs tr (fst c))).
    2: { rewrite E. split; [intros ((A & B) & C)|intros (A & C)].
         - split; [intros n [H|H]; auto|exact C].
         - split; [split|exact C]; intros n H; apply A; auto. }
    rewrite <- (inv_list _ _ HI). split.
    - intros H. assert (X : forall c, In c (cm_list s) -> scan_bad true (cm_heap s) startr stopr c = false).
      { intros c Hc. destruct (scan_bad true (cm_heap s) startr stopr c) eqn:Eb; [|reflexivity].
        rewrite <- H. symmetry. apply existsb_exists. exists c; auto. }
      split; intros [i info] Hin Hn; apply in_map_iff in Hin as (c & E & Hc); injection E as <- <-;
      specialize (X c Hc); unfold scan_bad, startr, stopr in X; rewrite !mem_named, (inv_running _ _ _ HI Hc) in X by assumption;
      simpl; rewrite Hn in X; rewrite <- runsb_spec; simpl in *;
      destruct (runsb tr (sp_inst c)), (named startn (sp_inst c, sp_info c)), (named stopn (sp_inst c, sp_info c)); simpl in X; congruence.
    - intros [H1 H2]. destruct (existsb _ _) eqn:Eb; [|reflexivity]. exfalso.
      apply existsb_exists in Eb as (c & Hc & Hb).
      unfold scan_bad, startr, stopr in Hb; rewrite !mem_named, (inv_running _ _ _ HI Hc) in Hb by assumption.
      assert (Hin := in_map (fun c => (sp_inst c, sp_info c)) _ _ Hc).
      specialize (H1 _ Hin). specialize (H2 _ Hin). simpl in H1, H2. rewrite <- runsb_spec in H1, H2.
      destruct (runsb tr (sp_inst c)), (named startn (sp_inst c, sp_info c)), (named stopn (sp_inst c, sp_info c)); simpl in *;
      try discriminate; try (apply H2; reflexivity); specialize (H1 eq_refl); discriminate.
  Qed.

  Lemma valid_lenient : valid false = true <->
    (forall c, In c (loaded tr) -> runs tr (fst c) -> named startn c = true -> named stopn c = true -> False).
  Proof.
    unfold valid. simpl. rewrite negb_true_iff, <- (inv_list _ _ HI). split.
    - intros H [i info] Hin Hr H1 H2. apply in_map_iff in Hin as (c & E & Hc); injection E as <- <-.
      assert (X : existsb (scan_bad false (cm_heap s) startr stopr) (cm_list s) = true); [|congruence].
      apply existsb_exists. exists c; split; [exact Hc|].
      unfold scan_bad, startr, stopr. rewrite !mem_named, (inv_running _ _ _ HI Hc) by assumption.
      apply runsb_spec in Hr. simpl in Hr. rewrite Hr, H1, H2. reflexivity.
    - intros H. destruct (existsb _ _) eqn:Eb; [|reflexivity]. exfalso.
      apply existsb_exists in Eb as (c & Hc & Hb).
      unfold scan_bad, startr, stopr in Hb; rewrite !mem_named, (inv_running _ _ _ HI Hc) in Hb by assumption.
      simpl in Hb. rewrite orb_false_r, !andb_true_iff in Hb. destruct Hb as [[A B] C].
      apply (H _ (in_map (fun c => (sp_inst c, sp_info c)) _ _ Hc)); auto. apply runsb_spec; exact A.
  Qed.

  (** The complete effect of the request up to the wait. *)
  Lemma switch_begin_spec strictness asap tmo now ck pr k :
    cm_start s = [] -> cm_stop s = [] ->
    let str := is_strict strictness in
    let r := switch_begin startn stopn strictness asap tmo now ck pr k s in
    let w := would_run tr startn stopn in
    let a := to_start tr startn in
    let b := to_stop tr stopn in
    exists st' , fst (fst r) = st' /\
    if valid str && negb (ck w) then
      snd (fst r) = [EvPrepare a b (pr a b)] /\ snd r = pr a b /\ cm_hwstart st' = a /\ cm_hwstop st' = b /\
      (if pr a b then
        cm_start st' = startr /\ cm_stop st' = stopr /\ cm_call st' = WaitSwitch tmo k /\
        cm_sw st' = mkSw true false now (if strictness =? 0 then BEST_EFFORT else strictness) asap tmo
       else cm_start st' = [] /\ cm_stop st' = [] /\ cm_call st' = Idle /\ cm_sw st' = sw_default)
    else snd (fst r) = [] /\ snd r = false /\ cm_start st' = [] /\ cm_stop st' = [] /\ cm_call st' = Idle /\
         cm_sw st' = sw_default.
  Proof.
    intros E1 E2. cbv zeta. eexists; split; [reflexivity|].
    unfold switch_begin. fold (is_strict strictness). generalize (is_strict strictness) as str. intros str.
    rewrite E1, E2, !collect_spec. fold (all_known stopn) (all_known startn). simpl app.
    fold startr stopr. unfold valid.
    destruct (str && negb (all_known stopn)); [cbn; tauto|].
    destruct (str && negb (all_known startn)); [cbn; tauto|]. simpl.
    destruct (scan_spec str (cm_heap s) startr stopr (cm_list s) [] [] []) as (x & y & ->).
    destruct (existsb _ _); [cbn; tauto|]. simpl app. rewrite would_run_eq, to_start_eq, to_stop_eq.
    simpl. destruct (ck _); [cbn; tauto|].
    destruct (pr _ _); cbn; tauto.
  Qed.
End Accept.

(** ** acceptance, on histories *)
Section Hist.
  Variables (ls : list loader) (ops : list op).
  Hypothesis Hclean : no_abandoned ops.
  Hypothesis Hidle : idle ls ops.
  Let s := reach ls ops.
  Let trc := trace ls ops.

  Lemma hist_empty : cm_start s = [] /\ cm_stop s = [].
  Proof. apply (inv_idle _ _ (inv2_reach ls ops Hclean) Hidle). Qed.

  Lemma step_switch a b st asap tmo now ck pr :
    step s (Switch a b st asap tmo now ck pr) =
    let '(s', e, ok) := switch_begin a b st asap tmo now ck pr KReturn s in (s', e, if ok then ANone else ABool false).
  Proof. unfold step. unfold s, idle in *. rewrite Hidle. reflexivity. Qed.

  Lemma accept_strict a b asap tmo now ck pr :
    reply ls ops (Switch a b STRICT asap tmo now ck pr) = ANone <-> strict_ok trc a b ck pr.
  Proof.
    unfold reply. fold s. rewrite step_switch.
    pose proof (inv_reach ls ops) as HI. fold s trc in HI. destruct hist_empty as [E1 E2].
    destruct (switch_begin_spec s trc HI a b STRICT asap tmo now ck pr KReturn E1 E2) as (s' & _ & H).
    destruct (switch_begin a b STRICT asap tmo now ck pr KReturn s) as [[s1 e1] ok]. cbn [fst snd] in *.
    change (is_strict STRICT) with true in H.
    pose proof (valid_strict s trc HI a b) as Hv.
    unfold strict_ok.
    destruct (valid s a b true) eqn:Ev; simpl in H.
    - destruct (ck _) eqn:Ec; simpl in H.
      + destruct H as (_ & -> & _). split; [discriminate|]. intros (A1 & A2 & A3 & A4 & A5). congruence.
      + destruct H as (_ & -> & _ & _ & _). destruct (proj1 Hv eq_refl) as (A1 & A2 & A3).
        destruct (pr _ _); split; auto; try discriminate. intros (_ & _ & _ & _ & X); discriminate.
    - destruct H as (_ & -> & _). split; [discriminate|]. intros (A1 & A2 & A3 & _).
      assert (false = true) by (apply Hv; auto). discriminate.
  Qed.

  Lemma is_strict_false z : z <> STRICT -> is_strict z = false.
  Proof.
    unfold is_strict, STRICT, BEST_EFFORT. intros H. destruct (Z.eqb_spec z 0); [reflexivity|].
    apply Z.eqb_neq; exact H.
  Qed.

  Lemma accept_lenient a b z asap tmo now ck pr : z <> STRICT ->
    reply ls ops (Switch a b z asap tmo now ck pr) = ANone <-> lenient_ok trc a b ck pr.
  Proof.
    intros Hz. unfold reply. fold s. rewrite step_switch.
    pose proof (inv_reach ls ops) as HI. fold s trc in HI. destruct hist_empty as [E1 E2].
    destruct (switch_begin_spec s trc HI a b z asap tmo now ck pr KReturn E1 E2) as (s' & _ & H).
    destruct (switch_begin a b z asap tmo now ck pr KReturn s) as [[s1 e1] ok]. cbn [fst snd] in *.
    rewrite (is_strict_false z Hz) in H.
    pose proof (valid_lenient s trc HI a b) as Hv.
    unfold lenient_ok.
    destruct (valid s a b false) eqn:Ev; simpl in H.
    - destruct (ck _) eqn:Ec; simpl in H.
      + destruct H as (_ & -> & _). split; [discriminate|]. intros (A1 & A4 & A5). congruence.
      + destruct H as (_ & -> & _ & _ & _). pose proof (proj1 Hv eq_refl) as A1.
        destruct (pr _ _); split; auto; try discriminate. intros (_ & _ & X); discriminate.
    - destruct H as (_ & -> & _). split; [discriminate|]. intros (A1 & _).
      assert (false = true) by (apply Hv; auto). discriminate.
  Qed.

  (** What the hardware is told. *)
  Lemma prepare_lists a b z asap tmo now ck pr x y ok :
    In (EvPrepare x y ok) (emits ls ops (Switch a b z asap tmo now ck pr)) ->
    x = to_start trc a /\ y = to_stop trc b /\ ok = pr x y.
  Proof.
    unfold emits. fold s. rewrite step_switch.
    pose proof (inv_reach ls ops) as HI. fold s trc in HI. destruct hist_empty as [E1 E2].
    destruct (switch_begin_spec s trc HI a b z asap tmo now ck pr KReturn E1 E2) as (s' & _ & H).
    destruct (switch_begin a b z asap tmo now ck pr KReturn s) as [[s1 e1] ok']. cbn [fst snd] in *.
    destruct (_ && _); [|destruct H as (-> & _); intros []].
    destruct H as (-> & _). intros [[= <- <- <-]|[]]; auto.
  Qed.

  (** The state right after acceptance. *)
  Lemma accepted_state a b z asap tmo now ck pr :
    reply ls ops (Switch a b z asap tmo now ck pr) = ANone ->
    let s1 := reach ls (ops ++ [Switch a b z asap tmo now ck pr]) in
    trace ls (ops ++ [Switch a b z asap tmo now ck pr]) = trc ++ [EvPrepare (to_start trc a) (to_stop trc b) true] /\
    cm_list s1 = cm_list s /\ cm_heap s1 = cm_heap s /\
    cm_start s1 = resolve (cm_list s) a /\ cm_stop s1 = resolve (cm_list s) b /\
    cm_hwstart s1 = to_start trc a /\ cm_hwstop s1 = to_stop trc b /\
    cm_call s1 = WaitSwitch tmo KReturn /\
    cm_sw s1 = mkSw true false now (if z =? 0 then BEST_EFFORT else z) asap tmo.
  Proof.
    cbv zeta. destruct (reach_snoc ls ops (Switch a b z asap tmo now ck pr)) as [-> ->].
    unfold reply. fold s. rewrite step_switch.
    pose proof (inv_reach ls ops) as HI. fold s trc in HI. destruct hist_empty as [E1 E2].
    destruct (switch_begin_spec s trc HI a b z asap tmo now ck pr KReturn E1 E2) as (s' & Es & H).
    destruct (switch_begin_frame a b z asap tmo now ck pr KReturn s) as (F1 & F2 & _).
    destruct (switch_begin a b z asap tmo now ck pr KReturn s) as [[s1 e1] ok']. cbn [fst snd] in *. subst s'.
    destruct ok'; [|discriminate]. intros _.
    destruct (_ && _); [|destruct H as (_ & X & _); discriminate].
    destruct H as (-> & Hp & Ha & Hb & H). rewrite <- Hp in *. 
    destruct H as (H1 & H2 & H3 & H4). fold trc. repeat split; auto.
  Qed.
End Hist.

(** ** waiting *)
Lemma no_reply_frame mid : forall s tmo k,
  cm_call s = WaitSwitch tmo k -> no_reply s mid ->
  let s' := fst (run s mid) in
  cm_list s' = cm_list s /\ cm_next s' = cm_next s /\ cm_start s' = cm_start s /\ cm_stop s' = cm_stop s /\
  cm_hwstart s' = cm_hwstart s /\ cm_hwstop s' = cm_hwstop s /\ cm_call s' = WaitSwitch tmo k /\
  sw_init (cm_sw s') = sw_init (cm_sw s) /\ sw_asap (cm_sw s') = sw_asap (cm_sw s) /\
  sw_timeout (cm_sw s') = sw_timeout (cm_sw s) /\ loaded (snd (run s mid)) = [] /\ Forall cyc_ev (snd (run s mid)).
Proof.
  assert (Hsw : forall t p r hw s, let s' := fst (update t p r hw s) in
            sw_init (cm_sw s') = sw_init (cm_sw s) /\ sw_asap (cm_sw s') = sw_asap (cm_sw s) /\
            sw_timeout (cm_sw s') = sw_timeout (cm_sw s)).
  { intros t p r hw s. destruct (update_decomp t p r hw s) as (h & _ & ->).
    destruct (sw_do (cm_sw s)); cbn [fst snd]; [|cbn; auto].
    destruct (manage_decomp t hw (set_heap s h)) as (_ & -> & _). cbn; auto. }
  induction mid as [|o mid IH]; intros s tmo k Hc Hn; simpl.
  - repeat split; auto.
  - destruct Hn as [Ho Hn].
    assert (Hs : let x := step s o in
              (exists ls, fst (fst x) = set_loaders s ls) /\ snd (fst x) = [] \/
              exists t p r hw, o = Cycle t p r hw /\ fst (fst x) = fst (update t p r hw s) /\ snd (fst x) = snd (update t p r hw s)).
    { assert (Hself : exists ls, s = set_loaders s ls) by (exists (cm_loaders s); destruct s; reflexivity).
      unfold step in *. rewrite Hc in *.
      destruct o; cbn [fst snd] in *; auto.
      - unfold poll in *. destruct (_ && _); [destruct (negb _); [|destruct (_ || _)]|]; auto.
        + exfalso. unfold switch_return in Ho. destruct k; cbn in Ho; [destruct Ho; discriminate|].
          destruct Ho; discriminate.
        + exfalso. unfold switch_return in Ho. destruct k; cbn in Ho; destruct Ho; discriminate.
        + exfalso. unfold switch_return in Ho. destruct k; cbn [fst snd] in Ho; [destruct Ho; discriminate|].
          unfold reload_tail in Ho. destruct (unload_all _ _) as [[? ?] [|]]; cbn in Ho; [|destruct Ho; discriminate].
          destruct (cm_list c); cbn in Ho; destruct Ho; discriminate.
      - right. exists time, period, reset, hw. destruct (update time period reset hw s); auto.
      - left. split; [eexists; reflexivity|reflexivity]. }
    destruct (step s o) as [[s1 e1] a]; cbn [fst snd] in *.
    assert (F : cm_list s1 = cm_list s /\ cm_next s1 = cm_next s /\ cm_start s1 = cm_start s /\ cm_stop s1 = cm_stop s /\
      cm_hwstart s1 = cm_hwstart s /\ cm_hwstop s1 = cm_hwstop s /\ cm_call s1 = WaitSwitch tmo k /\
      sw_init (cm_sw s1) = sw_init (cm_sw s) /\ sw_asap (cm_sw s1) = sw_asap (cm_sw s) /\
      sw_timeout (cm_sw s1) = sw_timeout (cm_sw s) /\ Forall cyc_ev e1).
    { destruct Hs as [[[ls' ->] ->]|(t & p & r & hw & -> & -> & ->)].
      - repeat split; auto.
      - destruct (update_frame t p r hw s) as (A1 & A2 & A3 & A4 & A5 & A6 & A7 & A8).
        destruct (Hsw t p r hw s) as (B1 & B2 & B3). rewrite <- Hc.
        repeat split; auto. apply update_cyc. }
    destruct F as (A1 & A2 & A3 & A4 & A5 & A6 & A7 & A8 & A9 & A10 & A11).
    destruct (IH s1 tmo k A7 Hn) as (B1 & B2 & B3 & B4 & B5 & B6 & B7 & B8 & B9 & B10 & B11 & B12).
    destruct (run s1 mid) as [s2 e2]; cbn [fst snd] in *.
    assert (Hf : Forall cyc_ev (e1 ++ e2)) by (apply Forall_app; auto).
    repeat split; try congruence.
    apply (loaded_cyc [] (e1 ++ e2)); exact Hf.
Qed.

(** ** after a refused or timed out request nothing happens *)
Lemma heap_update_empty t p r hw s :
  cm_start s = [] -> cm_stop s = [] -> heq (cm_heap (fst (update t p r hw s))) (cm_heap s).
Proof.
  intros Ea Eb. destruct (update_decomp t p r hw s) as (h & Hh & ->).
  destruct (sw_do (cm_sw s)); cbn [fst snd]; [|exact Hh].
  destruct (manage_decomp t hw (set_heap s h)) as (-> & _). cbn [set_heap cm_heap cm_stop]. rewrite Eb. cbn [stop_controllers for_each fst].
  unfold start_stage; cbn [set_heap cm_sw cm_start cm_list]. rewrite Ea.
  destruct (sw_asap _); [exact Hh|]. unfold start_controllers. destruct (swstate_eqb _ _); [exact Hh|].
  destruct (_ || _); exact Hh.
Qed.

(** No doSwitch is outstanding. *)
Definition hw_silent (s : cm) : Prop := sw_do (cm_sw s) = false \/ sw_started (cm_sw s) = true.

Lemma update_silent t p r hw s : hw_silent s ->
  hw_silent (fst (update t p r hw s)) /\ existsb is_do (snd (update t p r hw s)) = false.
Proof.
  intros Hd. destruct (update_decomp t p r hw s) as (h & _ & ->).
  assert (E : existsb is_do ((if r then reset_events t (cm_heap s) (cm_list s) else []) ++ upd_events t p (cm_heap s) (cm_list s)) = false).
  { rewrite existsb_app. apply orb_false_iff. split.
    - destruct r; [|reflexivity]. unfold reset_events. induction (filter _ (cm_list s)); simpl; auto.
    - unfold upd_events. induction (filter _ (cm_list s)); simpl; auto. }
  destruct (sw_do (cm_sw s)) eqn:Es; cbn [fst snd]; [|split; [left; exact Es|exact E]].
  destruct Hd as [Hd|Hd]; [congruence|].
  rewrite existsb_app, E. simpl orb.
  destruct (manage_decomp t hw (set_heap s h)) as (_ & E2 & ->). split; [right; rewrite E2; reflexivity|].
  unfold hwdo. cbn [set_heap cm_sw]. rewrite Hd. simpl app. rewrite existsb_app. apply orb_false_iff.
  set (h1 := fst (stop_controllers _ _ _)). split.
  - destruct (stop_stage t h (cm_stop s)) as (_ & _ & H).
    revert H. generalize (snd (stop_controllers t h (cm_stop s))) as l.
    induction 1 as [|x l (i & -> & _) Hl IH]; simpl; auto.
  - unfold start_stage. assert (X : forall f g (h : heap), (forall h i, snd (f h i) = [] \/ exists c, snd (f h i) = [EvCb i c t]) ->
                existsb is_do (snd (for_each f h g)) = false).
    { intros f g h' Hf. apply (for_each_ind f (fun _ e => existsb is_do e = false)) with (e := []); [|reflexivity].
      intros i h0 e0 _ H0. rewrite existsb_app, H0. destruct (Hf h0 i) as [->|(c & ->)]; reflexivity. }
    destruct (sw_asap _).
    + unfold start_controllers_asap.
      match goal with |- context [asap_loop ?a ?b ?c ?d ?e ?f ?g] => destruct (asap_touch a b c d e f g) as [_ H] end.
      destruct (asap_loop _ _ _ _ _ _ _) as [h2 e2]; cbn [fst snd] in *.
      induction H as [|x l (i & cb & -> & _) Hl IH]; simpl; auto.
    + unfold start_controllers. destruct (swstate_eqb _ _); [|destruct (_ || _)]; cbn [fst snd]; apply X; intros h0 i.
      * unfold start_request. destruct (h0 i); cbn; eauto.
      * unfold abort_request. destruct (h0 i); cbn; eauto.
      * unfold wait_request. destruct (h0 i); cbn; eauto.
Qed.

Lemma quiet_step s o :
  cm_call s = Idle -> cm_start s = [] -> cm_stop s = [] ->
  match o with Switch _ _ _ _ _ _ _ _ | Reload _ _ _ _ => False | _ => True end ->
  let s' := fst (fst (step s o)) in
  cm_call s' = Idle /\ cm_start s' = [] /\ cm_stop s' = [] /\ (cm_next s <= cm_next s')%nat /\
  (forall i, (i < cm_next s)%nat -> cm_heap s' i = cm_heap s i) /\
  (hw_silent s -> hw_silent s' /\ existsb is_do (snd (fst (step s o))) = false).
Proof.
  intros Hc Ea Eb Ho. unfold step. rewrite Hc.
  destruct o as [n env|n|a b st asap tmo now ck pr|w ok1' ok2|t p r hw| | |force now ck pr|l]; try contradiction; cbv zeta.
  - unfold load_controller. destruct (existsb _ _); [cbn; auto 10|]. destruct (negb _); [cbn; auto 10|].
    destruct (le_type env) as [ty|]; [|cbn; auto 10].
    pose proof (construct_create ty 0 (cm_loaders s)) as Hcr.
    destruct (construct ty 0 (cm_loaders s)) as [c ec]; cbn [fst snd] in *.
    assert (X : existsb is_do ec = false).
    { clear - Hcr. induction Hcr as [|x l Hx Hl IH]; simpl; [reflexivity|]. rewrite IH. destruct x; simpl in *; congruence. }
    destruct c; [|cbn; auto 10]. destruct (le_init env); cbn; repeat split; auto.
    + intros i Hi. apply upd_other. lia.
    + rewrite existsb_app, X. reflexivity.
  - unfold unload_controller. destruct (unload_scan _ _ _) as [[to [|]]|]; cbn; repeat split; auto.
    unfold dropped. induction (filter _ (cm_list s)); simpl; auto.
  - cbn; auto 10.
  - destruct (update_frame t p r hw s) as (A1 & A2 & A3 & A4 & A5 & A6 & A7 & A8).
    pose proof (heap_update_empty t p r hw s Ea Eb) as Hh.
    pose proof (update_silent t p r hw s) as Y.
    destruct (update t p r hw s) as [s' e']; cbn [fst snd] in *.
    split; [congruence|]. split; [congruence|]. split; [congruence|]. split; [lia|]. split; [intros i _; apply Hh|exact Y].
  - cbn; auto 10.
  - cbn; auto 10.
  - cbn; auto 10.
Qed.

Lemma quiet_run ops : forall s,
  cm_call s = Idle -> cm_start s = [] -> cm_stop s = [] -> no_request ops ->
  let s' := fst (run s ops) in
  (cm_next s <= cm_next s')%nat /\
  (forall i, (i < cm_next s)%nat -> cm_heap s' i = cm_heap s i) /\
  (hw_silent s -> existsb is_do (snd (run s ops)) = false).
Proof.
  induction ops as [|o ops IH]; intros s Hc Ea Eb Hr; simpl; [auto|].
  inversion Hr as [|? ? Ho Hr']; subst.
  destruct (quiet_step s o Hc Ea Eb) as (B1 & B2 & B3 & B4 & B5 & B6); [destruct o; auto|].
  destruct (step s o) as [[s1 e1] a]; cbn [fst snd] in *.
  destruct (IH s1 B1 B2 B3 Hr') as (C1 & C2 & C3).
  destruct (run s1 ops) as [s2 e2]; cbn [fst snd] in *.
  split; [lia|]. split.
  - intros i Hi. rewrite C2 by lia. auto.
  - intros Hd. destruct (B6 Hd) as [D1 D2]. rewrite existsb_app, D2. auto.
Qed.
