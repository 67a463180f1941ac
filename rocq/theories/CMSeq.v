(** The exact events of a control cycle while a switch request is pending. *)
From Verif Require Import HwTypes Lifecycle CMModel CMSpec CMInv CMTrace CMCycle CMSwitch CMLife CMSession CMSeqSpec.
Open Scope Z_scope.

Lemma flat_map_in_ext {A B} (f g : A -> list B) l : (forall a, In a l -> f a = g a) -> flat_map f l = flat_map g l.
Proof. induction l as [|x l IH]; intros H; simpl; [reflexivity|]. rewrite (H x), IH; auto with datatypes. Qed.

(** ** the stop stage *)
Lemma stop_exact t h0 l : forall seen h,
  (forall j, is_running h j = is_running h0 j && negb (mem j seen)) ->
  snd (for_each (stop_body t) h l) = map (fun i => EvCb i CbStopping t) (filter (is_running h0) (firsts seen l)).
Proof.
  induction l as [|i l IH]; intros seen h H; simpl; [reflexivity|].
  unfold stop_body at 1. pose proof (H i) as Hi. fold (mem i seen). destruct (mem i seen) eqn:Em.
  - rewrite andb_false_r in Hi. rewrite Hi. specialize (IH seen h H). destruct (for_each _ h l); exact IH.
  - rewrite andb_true_r in Hi. cbn [filter]. destruct (is_running h0 i) eqn:E0; rewrite Hi.
    + unfold stop_request. pose proof (proj1 (is_running_spec _ _) Hi) as Ei. rewrite Ei.
      specialize (IH (i :: seen) (upd h i STOPPED)). destruct (for_each (stop_body t) (upd h i STOPPED) l); cbn [fst snd app map].
      f_equal. apply IH. intros j. cbn [mem existsb]. unfold is_running at 1, upd.
      destruct (Nat.eqb_spec j i) as [->|Hne]; cbn [orb negb]; [rewrite andb_false_r; reflexivity|]. apply H.
    + specialize (IH (i :: seen) h). destruct (for_each (stop_body t) h l); cbn [fst snd app].
      apply IH. intros j. cbn [mem existsb]. destruct (Nat.eqb_spec j i) as [->|Hne]; cbn [orb negb].
      * rewrite E0, Hi. reflexivity.
      * apply H.
Qed.

(** ** the start stage, one by one *)
Lemma asap_exact t hw sw l req : NoDup (map sp_inst l) ->
  forall k (h : heap), NoDup (map sp_inst req) -> (forall c, In c req -> In c l) ->
  (forall c, In c req -> h (sp_inst c) <> CONSTRUCTED) ->
  snd (asap_loop t hw sw l k h (map sp_inst req)) =
  flat_map (fun kc => if is_running h (sp_inst (snd kc)) then [] else
              [EvCb (sp_inst (snd kc)) (fst (asap_dec t hw sw (fst kc) (sp_info (snd kc)))) t])
           (combine (seq k (length req)) req).
Proof.
  intros Hl. induction req as [|c req IH]; intros k h Hn Hin Hc; cbn [map length seq combine flat_map asap_loop]; [reflexivity|].
  inversion Hn as [|? ? Hx Hn']; subst. cbn [fst snd].
  assert (E : (if is_running h (sp_inst c) then (h, []) else for_each (asap_inner t hw sw k (sp_inst c)) h l) =
              if is_running h (sp_inst c) then (h, []) else
              (upd h (sp_inst c) (snd (asap_dec t hw sw k (sp_info c))), [EvCb (sp_inst c) (fst (asap_dec t hw sw k (sp_info c))) t])).
  { destruct (is_running h (sp_inst c)); [reflexivity|]. apply asap_inner_stage; auto; [apply Hin|apply Hc]; left; reflexivity. }
  rewrite E. clear E.
  set (h1 := fst (if is_running h (sp_inst c) then (h, []) else (upd h (sp_inst c) (snd (asap_dec t hw sw k (sp_info c))), [EvCb (sp_inst c) (fst (asap_dec t hw sw k (sp_info c))) t]))).
  assert (Hoth : forall d, In d req -> h1 (sp_inst d) = h (sp_inst d)).
  { intros d Hd. unfold h1. destruct (is_running h (sp_inst c)); cbn [fst]; [reflexivity|]. apply upd_other. intros Ed.
    apply Hx. rewrite <- Ed. apply in_map; exact Hd. }
  specialize (IH (S k) h1 Hn' (fun d Hd => Hin d (or_intror Hd))).
  assert (IH' := IH (fun d Hd => eq_ind_r (fun v => v <> CONSTRUCTED) (Hc d (or_intror Hd)) (Hoth d Hd))). clear IH.
  assert (Er : flat_map (fun kc => if is_running h1 (sp_inst (snd kc)) then [] else
              [EvCb (sp_inst (snd kc)) (fst (asap_dec t hw sw (fst kc) (sp_info (snd kc)))) t]) (combine (seq (S k) (length req)) req) =
          flat_map (fun kc => if is_running h (sp_inst (snd kc)) then [] else
              [EvCb (sp_inst (snd kc)) (fst (asap_dec t hw sw (fst kc) (sp_info (snd kc)))) t]) (combine (seq (S k) (length req)) req)).
  { apply flat_map_in_ext. intros [k' d] Hd. cbn [fst snd]. apply in_combine_r in Hd. unfold is_running. rewrite (Hoth d Hd). reflexivity. }
  rewrite Er in IH'. clear Er Hoth.
  unfold h1 in IH'. destruct (is_running h (sp_inst c)); cbn [fst snd app] in *.
  - destruct (asap_loop t hw sw l (S k) h (map sp_inst req)); cbn [fst snd app] in *. exact IH'.
  - destruct (asap_loop t hw sw l (S k) _ (map sp_inst req)); cbn [fst snd app] in *. f_equal. exact IH'.
Qed.

(** ** names *)
Definition reqspec (l : list cspec) (names : list string) : list cspec :=
  flat_map (fun n => filter (fun c => String.eqb (name_of c) n) l) names.

Lemma filter_by_name l n : NoDup (map name_of l) ->
  map sp_inst (filter (fun c => String.eqb (name_of c) n) l) = match by_name l n with Some i => [i] | None => [] end.
Proof.
  induction l as [|c l IH]; intros Hn; simpl; [reflexivity|]. inversion Hn as [|? ? Hx Hn']; subst.
  change (ci_name (sp_info c)) with (name_of c). destruct (String.eqb_spec (name_of c) n) as [E|E]; cbn [map].
  - f_equal. rewrite IH by exact Hn'. rewrite E in Hx. destruct (by_name l n) eqn:Eb; [|reflexivity].
    exfalso. apply Hx. destruct (by_name_some _ _ _ Eb) as (d & Hd & <- & _). apply in_map; exact Hd.
  - apply IH; exact Hn'.
Qed.
Lemma resolve_reqspec l names : NoDup (map name_of l) -> resolve l names = map sp_inst (reqspec l names).
Proof.
  intros Hn. induction names as [|n names IH]; simpl; [reflexivity|]. unfold reqspec in *. cbn [flat_map].
  rewrite map_app, (filter_by_name l n Hn), <- IH. destruct (by_name l n); reflexivity.
Qed.
Lemma requested_reqspec s tr names : Inv s tr -> requested tr names = map (fun c => (sp_inst c, sp_info c)) (reqspec (cm_list s) names).
Proof.
  intros HI. unfold requested, reqspec. rewrite <- (inv_list _ _ HI). induction names as [|n names IH]; simpl; [reflexivity|].
  rewrite map_app, IH. f_equal. generalize (cm_list s) as l. induction l as [|c l IHl]; simpl; [reflexivity|].
  unfold name_of at 1. destruct (String.eqb _ _); simpl; rewrite IHl; reflexivity.
Qed.
Lemma requested_ids s tr names : Inv s tr -> map fst (requested tr names) = resolve (cm_list s) names.
Proof.
  intros HI. rewrite (requested_reqspec s tr names HI), (resolve_reqspec _ _ (inv_names _ _ HI)), map_map. reflexivity.
Qed.
Lemma reqspec_in l names c : In c (reqspec l names) -> In c l.
Proof. unfold reqspec. rewrite in_flat_map. intros (n & _ & H). apply filter_In in H. tauto. Qed.

(** ** the whole cycle *)
Lemma cycle_exact t p r hw s : sw_do (cm_sw s) = true ->
  exists h, heq h (cm_heap s) /\
    let r1 := stop_controllers t h (cm_stop s) in
    snd (update t p r hw s) =
      ((if r then reset_events t (cm_heap s) (cm_list s) else []) ++ upd_events t p (cm_heap s) (cm_list s)) ++
      hwdo s ++ snd r1 ++ snd (fst (start_stage t hw s (fst r1))).
Proof.
  intros Hd. destruct (update_decomp t p r hw s) as (h & Hh & ->). rewrite Hd. cbn [fst snd].
  destruct (manage_decomp t hw (set_heap s h)) as (_ & _ & ->). exists h. split; [exact Hh|]. cbv zeta. reflexivity.
Qed.

Lemma started_run mid : forall s tmo k, cm_call s = WaitSwitch tmo k -> no_reply s mid ->
  (sw_started (cm_sw s) = false -> sw_do (cm_sw s) = true) ->
  sw_started (cm_sw (fst (run s mid))) = sw_started (cm_sw s) || cycled mid.
Proof.
  induction mid as [|o mid IH]; intros s tmo k Hc Hn Hd; [cbn; rewrite orb_false_r; reflexivity|].
  cbn [run]. destruct Hn as [Ho Hn].
  assert (Hno : no_reply s [o]) by (simpl; auto).
  destruct (no_reply_frame [o] s _ k Hc Hno) as (_ & _ & _ & _ & _ & _ & Hc1 & _). simpl in Hc1.
  destruct (waiting_step s o _ k Hc Ho) as [((ls' & E1) & E2 & Hnc)|(t & p & r & hw & -> & E1 & E2)];
  destruct (step s _) as [[s1 e1] a]; cbn [fst snd] in *; subst s1.
  - specialize (IH (set_loaders s ls') tmo k Hc Hn Hd). destruct (run (set_loaders s ls') mid); cbn [fst] in *. rewrite IH.
    cbn [cm_sw set_loaders]. destruct o; cbn [cycled existsb orb]; try reflexivity. exfalso; eapply Hnc; reflexivity.
  - assert (Hs1 : sw_started (cm_sw (fst (update t p r hw s))) = true).
    { destruct (sw_do (cm_sw s)) eqn:Ed.
      - destruct (cycle_decomp t p r hw s Ed) as (h1 & _ & _ & -> & _). reflexivity.
      - destruct (update_decomp t p r hw s) as (h & Hh & ->). rewrite Ed. cbn [fst].
        cbn [cm_sw set_heap]. destruct (sw_started (cm_sw s)); [reflexivity|]. specialize (Hd eq_refl). congruence. }
    specialize (IH _ tmo k Hc1 Hn). rewrite Hs1 in IH. specialize (IH ltac:(discriminate)).
    destruct (run _ mid); cbn [fst] in *. rewrite IH. cbn [cycled existsb orb]. rewrite orb_true_r. reflexivity.
Qed.

Lemma told_dec x y now tmo t sw : sw_init sw = now -> sw_timeout sw = tmo ->
  told x y now tmo t = if swstate_eqb x DONE then CbStarting
    else if swstate_eqb y ERROR || timed_out sw t then CbAborting else CbWaiting.
Proof. intros <- <-. unfold told, timed_out. destruct x, y; cbn [swstate_eqb orb]; try reflexivity; destruct (_ && _); reflexivity. Qed.

Section Exact.
  Variables (ls : list loader) (ops : list op).
  Variables (a b : list string) (z : Z) (asap : bool) (tmo now : Z).
  Variables (ck : list cinfo -> bool) (pr : list cinfo -> list cinfo -> bool).
  Let sw := Switch a b z asap tmo now ck pr.
  Variable mid : list op.
  Hypothesis Hclean : no_abandoned ops.
  Hypothesis Hidle : idle ls ops.
  Hypothesis Hacc : reply ls ops sw = ANone.
  Hypothesis Hwait : still_waiting ls (ops ++ [sw]) mid.
  Let before := (ops ++ [sw]) ++ mid.
  Hypothesis Hpend : pending ls before.

  Lemma session_started : sw_started (cm_sw (reach ls before)) = cycled mid.
  Proof.
    destruct (accepted_state ls ops Hclean Hidle a b z asap tmo now ck pr Hacc) as (_ & _ & _ & _ & _ & _ & _ & A7 & A8).
    fold sw in A7, A8. unfold before. destruct (reach_app ls (ops ++ [sw]) mid) as [-> _].
    rewrite (started_run mid _ _ _ A7 Hwait); rewrite A8; [reflexivity|]. intros _; reflexivity.
  Qed.

  Lemma running_before t p :
    upd_events t p (cm_heap (reach ls before)) (cm_list (reach ls before)) =
    map (fun c => EvCb (fst c) (CbUpdate p) t) (running_list (trace ls before)).
  Proof.
    pose proof (inv_reach ls before) as HI. unfold upd_events, running_list. rewrite <- (inv_list _ _ HI).
    assert (G : forall l, (forall c, In c l -> In c (cm_list (reach ls before))) ->
       map (fun c => EvCb (sp_inst c) (CbUpdate p) t) (filter (fun c => is_running (cm_heap (reach ls before)) (sp_inst c)) l) =
       map (fun c => EvCb (fst c) (CbUpdate p) t) (filter (fun c => runsb (trace ls before) (fst c)) (map (fun c => (sp_inst c, sp_info c)) l))).
    { induction l as [|c l IH]; intros Hl; [reflexivity|]. cbn [filter map fst].
      rewrite (inv_running _ _ c HI) by (apply Hl; left; reflexivity).
      destruct (runsb _ _); cbn [map fst]; rewrite IH; auto with datatypes. }
    apply G. auto.
  Qed.

  Lemma exact_cycle t p hw : (asap = true -> NoDup a) ->
    emits ls before (Cycle t p false hw) =
      map (fun c => EvCb (fst c) (CbUpdate p) t) (running_list (trace ls before)) ++
      (if cycled mid then [] else [EvDo (to_start (trace ls ops) a) (to_stop (trace ls ops) b)]) ++
      stops_of (trace ls before) (trace ls ops) b t ++
      (if asap then starts_apart hw (fun c => runsb (trace ls before) (fst c) && negb (named b c)) now tmo t (requested (trace ls ops) a)
       else starts_together hw now tmo t (requested (trace ls ops) a)).
  Proof.
    intros Hnd.
    pose proof (pending_do ls ops a b z asap tmo now ck pr mid Hclean Hidle Hacc Hwait Hpend) as Hd. fold sw before in Hd.
    destruct (session_frame ls ops a b z asap tmo now ck pr mid Hclean Hidle Hacc Hwait) as (B1 & B2 & B3 & B4 & B5 & B6 & B7 & B8 & B9 & B10).
    fold sw before in B1, B2, B3, B4, B5, B6, B7, B8, B9, B10.
    pose proof (session_started) as Hst.
    pose proof (inv_reach ls ops) as HI. pose proof (inv_reach ls before) as HI2.
    pose proof (proj1 (session_inv ls ops a b z asap tmo now ck pr mid Hclean Hidle Hacc Hwait True ltac:(apply Forall_forall; intros []; auto))) as (W1 & W2 & W3).
    fold sw before in W1, W2, W3.
    rewrite cycle_emits. destruct (cycle_exact t p false hw (reach ls before) Hd) as (h & Hh & ->). cbv zeta. cbn [app].
    rewrite running_before. f_equal. f_equal.
    { unfold hwdo. rewrite Hst, B4, B5. reflexivity. }
    assert (Hrun : forall j, In j (map sp_inst (cm_list (reach ls before))) -> is_running (cm_heap (reach ls before)) j = runsb (trace ls before) j).
    { intros j Hj. apply in_map_iff in Hj as (c & <- & Hc). apply (inv_running _ _ _ HI2 Hc). }
    f_equal.
    - unfold stop_controllers. rewrite (stop_exact t (cm_heap (reach ls before)) _ []).
      + unfold stops_of. f_equal. rewrite B3. rewrite <- (requested_ids _ _ b HI).
        apply filter_ext_in. intros j Hj. apply Hrun. rewrite B1.
        assert (In j (map fst (requested (trace ls ops) b))) as Hj'.
        { revert Hj. clear. generalize (map fst (requested (trace ls ops) b)) as l, (@nil nat) as seen. induction l as [|i l IH]; intros seen; simpl; [tauto|].
          destruct (existsb _ _); simpl; [intros H; right; eapply IH; exact H|]. intros [H|H]; [left; exact H|right; eapply IH; exact H]. }
        rewrite (requested_ids _ _ b HI) in Hj'. apply (resolve_in _ _ _ Hj').
      + intros j. unfold is_running. rewrite Hh. cbn. rewrite andb_true_r. reflexivity.
    - destruct (stop_stage t h (cm_stop (reach ls before))) as (S1 & _ & _).
      set (h1 := fst (stop_controllers t h (cm_stop (reach ls before)))) in *.
      assert (Hin : forall i, In i (cm_start (reach ls before)) -> In i (map sp_inst (cm_list (reach ls before))) /\ h1 i <> CONSTRUCTED).
      { intros i Hi. split; [auto|]. unfold h1. rewrite S1. destruct (_ && _); [discriminate|]. rewrite Hh. auto. }
      destruct asap.
      + specialize (Hnd eq_refl). unfold start_stage. rewrite B8. unfold start_controllers_asap.
        assert (Hreq : cm_start (reach ls before) = map sp_inst (reqspec (cm_list (reach ls ops)) a)).
        { rewrite B2. apply resolve_reqspec. apply HI. }
        pose proof (asap_exact t hw (cm_sw (reach ls before)) (cm_list (reach ls before)) (reqspec (cm_list (reach ls ops)) a) W1 0%nat h1) as X.
        rewrite <- Hreq in X.
        assert (Y1 : NoDup (cm_start (reach ls before))) by (rewrite B2; apply resolve_nodup; [apply HI|exact Hnd]).
        specialize (X Y1).
        assert (Y2 : forall c, In c (reqspec (cm_list (reach ls ops)) a) -> In c (cm_list (reach ls before))).
        { intros c Hc. rewrite B1. eapply reqspec_in; exact Hc. }
        specialize (X Y2).
        assert (Y3 : forall c, In c (reqspec (cm_list (reach ls ops)) a) -> h1 (sp_inst c) <> CONSTRUCTED).
        { intros c Hc. apply Hin. rewrite Hreq. apply in_map; exact Hc. }
        specialize (X Y3).
        destruct (asap_loop t hw _ _ 0 h1 _) as [h2 e2]; cbn [fst snd] in *. rewrite X. clear X Y3 h2 e2.
        unfold starts_apart. rewrite (requested_reqspec _ _ a HI), map_length.
        generalize (seq 0 (length (reqspec (cm_list (reach ls ops)) a))) as ks.
        revert Y2. generalize (reqspec (cm_list (reach ls ops)) a) as req.
        induction req as [|c req IH]; intros Y2 [|k ks]; try reflexivity. cbn [combine map flat_map fst snd].
        f_equal; [|apply IH; intros d Hd'; apply Y2; right; exact Hd'].
        assert (Hc : In c (cm_list (reach ls before))) by (apply Y2; left; reflexivity).
        assert (Er : is_running h1 (sp_inst c) = runsb (trace ls before) (sp_inst c) && negb (named b (sp_inst c, sp_info c))).
        { unfold is_running. unfold h1. rewrite S1. assert (Hc0 : In c (cm_list (reach ls ops))) by (rewrite <- B1; exact Hc).
          rewrite B3. rewrite (mem_named _ _ HI b c Hc0). rewrite <- (inv_running _ _ c HI2 Hc). unfold is_running.
          rewrite !Hh. destruct (named b _), (cm_heap _ _); reflexivity. }
        rewrite Er. destruct (_ && _); [reflexivity|].
        rewrite (told_dec _ _ now tmo t (cm_sw (reach ls before)) B7 B9). unfold asap_dec.
        destruct (swstate_eqb _ _); [reflexivity|]. destruct (_ || _); reflexivity.
      + destruct (stage_nonasap t hw (reach ls before) h1 Hin B8) as (_ & _ & ->).
        unfold starts_together. rewrite (told_dec _ _ now tmo t (cm_sw (reach ls before)) B7 B9).
        rewrite B2, <- (requested_ids _ _ a HI), map_map.
        apply map_ext. intros c. destruct (swstate_eqb _ _); [reflexivity|]. destruct (_ || _); reflexivity.
  Qed.
End Exact.
