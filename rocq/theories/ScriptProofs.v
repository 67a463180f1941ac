(** Effects of service calls on the board, and of the scripts. *)
From Coq Require Import Permutation Lia.
From Verif Require Import HwTypes Lifecycle CMModel CMSpec CMInv CMTrace CMCycle CMSwitch CMLife CMSession CMExcl CMHooks CMLoad CMRest ScriptModel ScriptSpec.
Local Open Scope string_scope.
Local Open Scope list_scope.

Lemma isin_spec n l : isin n l = true <-> In n l.
Proof.
  unfold isin. rewrite existsb_exists. split.
  - intros (x & H & E). apply String.eqb_eq in E. now subst.
  - intros H. exists n. split; [exact H | apply String.eqb_refl].
Qed.
Lemma isin_false n l : isin n l = false <-> ~ In n l.
Proof. rewrite <- isin_spec. destruct (isin n l); intuition congruence. Qed.
Lemma listed_spec n l : listed n l = true <-> In n l.
Proof. unfold listed. destruct (in_dec string_dec n l); intuition discriminate. Qed.
Lemma isin_listed n l : isin n l = listed n l.
Proof. apply eq_true_iff_eq. rewrite isin_spec, listed_spec. reflexivity. Qed.
Lemma switched_isin a b l : switched a b l =
  map (fun x => (fst x, if isin (fst x) a then PStarted else if isin (fst x) b && started (snd x) then PStopped else snd x)) l.
Proof. unfold switched. apply map_ext. intros [n p]. cbn [fst snd]. now rewrite !isin_listed. Qed.
Lemma named_isin l c : named l c = isin (ci_name (snd c)) l.
Proof. reflexivity. Qed.
Lemma started_spec p : started p = true <-> p = PStarted.
Proof. apply phase_eqb_spec. Qed.

(** ** single calls *)
Lemma board_names ls h : NoDup (names (board ls h)).
Proof.
  unfold names, board. rewrite map_map. cbn [fst]. pose proof (inv_names _ _ (inv_reach ls h)) as N.
  rewrite <- (inv_list _ _ (inv_reach ls h)), map_map. exact N.
Qed.

Lemma board_same ls h h' : loaded (trace ls h') = loaded (trace ls h) ->
  (forall c, In c (loaded (trace ls h)) -> phase_of (trace ls h') (fst c) = phase_of (trace ls h) (fst c)) -> board ls h' = board ls h.
Proof. intros E P. unfold board. rewrite E. apply map_ext_in. intros c Hc. now rewrite P. Qed.

Lemma calm_snoc ls h o : calm ls h -> not_abandon o -> idle ls (h ++ [o]) -> calm ls (h ++ [o]).
Proof. intros [C _] N I. split; [apply no_abandoned_app; auto | exact I]. Qed.

Lemma env_call ls h o : calm ls h -> alone o -> calm ls (h ++ [o]) /\ board ls (h ++ [o]) = board ls h.
Proof.
  intros C A. destruct C as [Cn Ci] eqn:E. clear E.
  destruct (hist_empty ls h Cn Ci) as [E1 E2].
  assert (L : idle ls (h ++ [o]) /\ loaded (trace ls (h ++ [o])) = loaded (trace ls h)).
  { rewrite trace_snoc. unfold idle. destruct (reach_snoc ls h o) as [-> _]. unfold emits. unfold idle in Ci.
    destruct o; try (cbn in A; contradiction); cbn [step]; rewrite ?Ci.
    - cbn. rewrite app_nil_r. auto.
    - destruct (update time period reset hw (reach ls h)) as [s e] eqn:E. cbn [fst snd]. split.
      + pose proof (update_frame time period reset hw (reach ls h)) as F. rewrite E in F. cbn [fst] in F. cbv zeta in F. intuition congruence.
      + apply loaded_cyc. pose proof (update_cyc time period reset hw (reach ls h)) as F. now rewrite E in F. }
  destruct L as [L1 L2]. split.
  - apply calm_snoc; auto. destruct o; cbn in *; auto. destruct A as [-> ->]. exact I.
  - apply board_same; [exact L2|]. intros c Hc.
    assert (NR : no_request [o]) by (constructor; [destruct o; auto | constructor]).
    destruct (quiet_phases ls h [o] Ci E1 E2 NR) as [Q _]. destruct (Q c Hc) as [Q1|Q1]; [|exact Q1].
    exfalso. rewrite <- L2 in Hc. pose proof (inv_reach ls (h ++ [o])) as HI.
    rewrite <- (inv_list _ _ HI) in Hc. apply in_map_iff in Hc as (d & <- & Hd). cbn [fst] in Q1.
    pose proof (proj1 (inv_live _ _ HI d Hd)). contradiction.
Qed.

Lemma load_call ls h n env b : calm ls h -> reply ls h (Load n env) = ABool b ->
  calm ls (h ++ [Load n env]) /\
  board ls (h ++ [Load n env]) = board ls h ++ (if b then [(n, PLoaded)] else []) /\ (b = true -> ~ In n (names (board ls h))).
Proof.
  intros C R. pose proof C as [Cn Ci].
  assert (I : idle ls (h ++ [Load n env])).
  { unfold idle. destruct (reach_snoc ls h (Load n env)) as [-> _]. cbn [step]. unfold idle in Ci. rewrite Ci.
    unfold CMModel.load_controller. destruct (existsb _ _); [exact Ci|]. destruct (negb _); [exact Ci|]. destruct (le_type env); [|exact Ci].
    destruct (construct _ _ _) as [[|] ?]; [|exact Ci]. destruct (le_init env); exact Ci. }
  split; [apply calm_snoc; auto; exact Logic.I|].
  destruct (load_effect ls h Ci n env) as [T F]. destruct b.
  - destruct (T R) as (i & ty & cl & _ & _ & P0 & P1 & L & P).
    assert (B : board ls (h ++ [Load n env]) = board ls h ++ [(n, PLoaded)]).
    { unfold board. rewrite L, map_app. cbn [map fst snd ci_name]. rewrite P1. f_equal.
      apply map_ext_in. intros c Hc. f_equal. apply P. intros <-.
      pose proof (inv_reach ls h) as HI. rewrite <- (inv_list _ _ HI) in Hc. apply in_map_iff in Hc as (d & <- & Hd). cbn [fst] in P0.
      pose proof (proj2 (inv_live _ _ HI d Hd)). contradiction. }
    split; [exact B|]. intros _ Hn. pose proof (board_names ls (h ++ [Load n env])) as N. rewrite B in N.
    unfold names in *. rewrite map_app in N. cbn in N. apply NoDup_remove_2 in N. rewrite app_nil_r in N. contradiction.
  - destruct (F R) as [L P]. rewrite app_nil_r. split; [|discriminate]. now apply board_same.
Qed.

Lemma unload_call_board ls h n b : calm ls h -> reply ls h (Unload n) = ABool b ->
  calm ls (h ++ [Unload n]) /\
  (b = true -> exists p, In (n, p) (board ls h) /\ p <> PStarted) /\
  (b = false -> ~ In n (names (board ls h)) \/ running (board ls h) n) /\
  board ls (h ++ [Unload n]) = filter (fun x => negb (String.eqb (fst x) n) || started (snd x)) (board ls h).
Proof.
  intros C R. pose proof C as [Cn Ci].
  destruct (unload_iff ls h Ci n) as [U _]. destruct (unload_effect ls h Ci n) as [T F].
  assert (ND : NoDup (map (fun c => ci_name (snd c)) (loaded (trace ls h)))).
  { pose proof (board_names ls h) as N. unfold names, board in N. rewrite map_map in N. exact N. }
  assert (I : idle ls (h ++ [Unload n])).
  { unfold idle. destruct (reach_snoc ls h (Unload n)) as [-> _]. cbn [step]. unfold idle in Ci. rewrite Ci.
    pose proof (unload_call n (reach ls h)) as X. destruct (CMModel.unload_controller n (reach ls h)) as [[? ?] ?]. cbn in *. congruence. }
  split; [apply calm_snoc; auto; exact Logic.I|]. destruct b.
  - destruct (proj1 U R) as (c & Hc & En & Nr). split; [|split; [discriminate|]].
    + intros _. exists (phase_of (trace ls h) (fst c)). split; [|exact Nr]. unfold board. apply in_map_iff. exists c. split; [now rewrite En | exact Hc].
    + destruct (T R) as (i & Hi & _ & L & P). unfold board. rewrite L.
      assert (Ei : i = fst c).
      { destruct (Nat.eq_dec i (fst c)) as [E|E]; [exact E|]. exfalso.
        (* destroyed instance is the named one *)
        apply in_map_iff in Hi. destruct Hi as (d & <- & Hd).
        destruct (string_dec (ci_name (snd d)) n) as [Ed|Ed].
        - apply E. f_equal. apply (nodup_map_inj (fun c => ci_name (snd c)) (loaded (trace ls h))); auto. congruence.
        - assert (Hd' : In d (loaded (trace ls (h ++ [Unload n])))).
          { rewrite L. apply filter_In. split; [exact Hd|]. apply negb_true_iff, String.eqb_neq, Ed. }
          assert (Hc' : ~ In c (loaded (trace ls (h ++ [Unload n])))).
          { rewrite L. rewrite filter_In, En, String.eqb_refl. intros [_ X]. discriminate X. }
          destruct (T R) as (i' & _ & Em & _ & P'). assert (Pd : phase_of (trace ls (h ++ [Unload n])) i' = PGone).
          { rewrite trace_snoc, Em, phase_snoc. cbn. now rewrite Nat.eqb_refl. }
          destruct (Nat.eq_dec i' (fst c)) as [Ec|Ec].
          + (* then the phase of d's instance is that of before, and P says i = fst d destroyed *)
            destruct (T R) as (i2 & _ & Em2 & _ & _). rewrite Em in Em2. injection Em2 as <-.
            pose proof (P (fst c)) as Pc. rewrite Ec in Pd. rewrite Pd in Pc.
            pose proof (inv_reach ls h) as HI. pose proof Hc as Hc2. rewrite <- (inv_list _ _ HI) in Hc2. apply in_map_iff in Hc2 as (e & Ee & He).
            destruct (inv_live _ _ HI e He) as [G _]. rewrite <- Ee in Pc. cbn [fst] in Pc. apply G. symmetry. apply Pc. rewrite <- Ee in E. cbn [fst] in E. congruence.
          + pose proof (P' (fst c)) as Pc.
            (* c was dropped from the list although its instance was not destroyed *)
            pose proof (inv2_reach ls (h ++ [Unload n])) as I2. destruct (no_abandoned_app h (Unload n)) as [_ NA].
            specialize (I2 (NA (conj Cn Logic.I))). pose proof (inv_conv _ _ I2 (fst c)) as V. rewrite Pc in V by congruence.
            pose proof (inv_reach ls h) as HI. pose proof Hc as Hc2. rewrite <- (inv_list _ _ HI) in Hc2. apply in_map_iff in Hc2 as (e & Ee & He).
            destruct (inv_live _ _ HI e He) as [G1 G2]. rewrite <- Ee in V. cbn [fst] in V. specialize (V G2 G1).
            pose proof (inv_reach ls (h ++ [Unload n])) as HI'. apply in_map_iff in V as (f & Ef & Hf).
            assert (Hf2 : In (sp_inst f, sp_info f) (loaded (trace ls (h ++ [Unload n])))) by (rewrite <- (inv_list _ _ HI'); apply in_map_iff; eauto).
            rewrite L in Hf2. apply filter_In in Hf2 as [Hf2 Nf].
            assert (Efc : (sp_inst f, sp_info f) = c).
            { apply (nodup_map_inj fst (loaded (trace ls h))); auto; [|rewrite <- Ee; exact Ef].
              rewrite <- (inv_list _ _ HI), map_map. exact (inv_nodup _ _ HI). }
            rewrite Efc, En, String.eqb_refl in Nf. discriminate Nf. }
      subst i. clear T F U.
      assert (Q : forall l, (forall d, In d l -> In d (loaded (trace ls h))) ->
        map (fun c0 => (ci_name (snd c0), phase_of (trace ls (h ++ [Unload n])) (fst c0))) (filter (fun c0 => negb (String.eqb (ci_name (snd c0)) n)) l) =
        filter (fun x => negb (String.eqb (fst x) n) || started (snd x)) (map (fun c0 => (ci_name (snd c0), phase_of (trace ls h) (fst c0))) l)).
      { induction l as [|d l IH]; intros Hl; [reflexivity|]. cbn [filter map fst snd].
        destruct (String.eqb_spec (ci_name (snd d)) n) as [Ed|Ed]; cbn [negb orb].
        - assert (d = c). { apply (nodup_map_inj (fun c => ci_name (snd c)) (loaded (trace ls h))); auto; [apply Hl; now left | congruence]. }
          subst d. destruct (started (phase_of (trace ls h) (fst c))) eqn:Es; [exfalso; apply Nr; now apply started_spec|]. apply IH. intros d Hd. apply Hl. now right.
        - cbn [map]. rewrite (P (fst d)).
          + f_equal. apply IH. intros e He. apply Hl. now right.
          + intros Ef. apply Ed. assert (d = c); [|congruence]. apply (nodup_map_inj fst (loaded (trace ls h))); auto; [|apply Hl; now left].
            rewrite <- (inv_list _ _ (inv_reach ls h)), map_map. exact (inv_nodup _ _ (inv_reach ls h)). }
      apply Q. auto.
  - destruct (F R) as [_ Tr]. split; [discriminate|].
    assert (NU : ~ exists c, In c (loaded (trace ls h)) /\ ci_name (snd c) = n /\ ~ runs (trace ls h) (fst c)).
    { intros X. apply U in X. congruence. }
    assert (K : forall c, In c (loaded (trace ls h)) -> ci_name (snd c) = n -> runs (trace ls h) (fst c)).
    { intros c Hc En. apply runsb_spec. destruct (runsb (trace ls h) (fst c)) eqn:E; [reflexivity|]. exfalso. apply NU. exists c. repeat split; auto.
      intros X. apply runsb_spec in X. congruence. }
    split.
    + intros _. destruct (in_dec string_dec n (names (board ls h))) as [H|H]; [right|now left].
      unfold names, board in H. rewrite map_map in H. apply in_map_iff in H as (c & En & Hc). cbn in En.
      unfold running, board. apply in_map_iff. exists c. rewrite En, (K c Hc En). auto.
    + unfold board. rewrite Tr. clear -K. induction (loaded (trace ls h)) as [|c l IH]; [reflexivity|]. cbn [map filter fst snd].
      destruct (String.eqb_spec (ci_name (snd c)) n) as [En|En]; cbn [negb orb].
      * pose proof (K c (or_introl eq_refl) En) as Rc. assert (E : started (phase_of (trace ls h) (fst c)) = true) by now apply started_spec.
        rewrite E. f_equal. apply IH. intros d Hd. apply K. now right.
      * f_equal. apply IH. intros d Hd. apply K. now right.
Qed.

Lemma list_call ls h l : calm ls h -> reply ls h ListControllers = AList l ->
  calm ls (h ++ [ListControllers]) /\ board ls (h ++ [ListControllers]) = board ls h /\
  map (fun e => (en_name e, en_state e)) l = map (fun x => (fst x, phase_string (snd x))) (board ls h).
Proof.
  intros C R. pose proof C as [Cn Ci].
  assert (E : step (reach ls h) ListControllers = (reach ls h, [], AList (list_controllers (reach ls h)))).
  { cbn [step]. unfold idle in Ci. rewrite Ci. reflexivity. }
  split; [apply calm_snoc; [exact C | exact Logic.I|]|split].
  - unfold idle. destruct (reach_snoc ls h ListControllers) as [-> _]. now rewrite E.
  - unfold board. rewrite trace_snoc. unfold emits. rewrite E. cbn [fst snd]. now rewrite app_nil_r.
  - unfold reply in R. rewrite E in R. injection R as <-. unfold board, list_controllers. rewrite !map_map. cbn [en_name en_state fst snd].
    pose proof (inv_reach ls h) as HI. rewrite <- (inv_list _ _ HI), map_map. apply map_ext_in. intros c Hc. cbn [fst snd]. f_equal.
    unfold state_string. pose proof (inv_heap _ _ _ HI Hc) as Hh. destruct (inv_live _ _ HI c Hc) as [G1 G2].
    unfold is_initialized, is_running, is_stopped, is_waiting, is_aborted. rewrite Hh.
    destruct (phase_of (trace ls h) (sp_inst c)); try reflexivity; congruence.
Qed.

Section SwitchCall.
  Variables (ls : list loader) (h : list op) (a b : list string) (z now : Z).
  Variables (ck : list cinfo -> bool) (pr : list cinfo -> list cinfo -> bool).
  Hypothesis C : calm ls h.
  Let sw := Switch a b z false 0 now ck pr.

  Lemma refused_call : reply ls h sw = ABool false -> calm ls (h ++ [sw]) /\ board ls (h ++ [sw]) = board ls h.
  Proof.
    intros R. destruct C as [Cn Ci]. destruct (refused_state ls h Cn Ci a b z false 0 now ck pr R) as (I & _).
    destruct (refused_now ls h Cn Ci a b z false 0 now ck pr R) as (L & P & _).
    split; [apply calm_snoc; auto; exact Logic.I | apply board_same; auto].
  Qed.

  Variable mid : list op.
  Hypothesis Hacc : reply ls h sw = ANone.
  Hypothesis HW : Forall alone mid.
  Hypothesis Hwait : still_waiting ls (h ++ [sw]) mid.

  Lemma alone_clean l : Forall alone l -> no_abandoned l.
  Proof. apply Forall_impl. intros []; cbn; auto. intros [-> ->]. exact Logic.I. Qed.

  Lemma switch_call w x : reply ls ((h ++ [sw]) ++ mid) (Poll w true true) = ABool x ->
    let h' := ((h ++ [sw]) ++ mid) ++ [Poll w true true] in
    x = true /\ calm ls h' /\ board ls h' = switched a b (board ls h).
  Proof.
    cbv zeta. intros R. destruct C as [Cn Ci].
    destruct (session_frame ls h a b z false 0 now ck pr mid Cn Ci Hacc Hwait) as (_ & _ & _ & _ & _ & Hc & _ & _ & _ & L). fold sw in Hc, L.
    set (o2 := (h ++ [sw]) ++ mid) in *.
    assert (X : x = true /\ idle ls (o2 ++ [Poll w true true]) /\ emits ls o2 (Poll w true true) = []).
    { unfold idle, emits. destruct (reach_snoc ls o2 (Poll w true true)) as [-> _]. unfold reply in R. cbn [step] in *. rewrite Hc in *.
      unfold poll in *. cbn [andb negb] in *. rewrite Z.eqb_refl, orb_true_r in *. destruct (sw_do _); [discriminate R|].
      cbn in *. injection R as <-. auto. }
    destruct X as (-> & I2 & E2). split; [reflexivity|].
    assert (CN : no_abandoned (o2 ++ [Poll w true true])).
    { unfold no_abandoned, o2 in *. rewrite !Forall_app. repeat split; auto; try (repeat constructor; fail). apply (alone_clean mid HW). }
    split; [split; [exact CN | exact I2]|].
    assert (T : trace ls (o2 ++ [Poll w true true]) = trace ls o2) by (now rewrite trace_snoc, E2, app_nil_r).
    rewrite switched_isin. unfold board. rewrite T, L, map_map. apply map_ext_in. intros c Hc'. cbn [fst snd]. f_equal.
    destruct (true_reply ls h a b z false 0 now ck pr mid Cn Ci Hacc Hwait w true R) as [T1 T2]. fold sw o2 in T1, T2.
    rewrite <- !named_isin. destruct (named a c) eqn:Na.
    - destruct (T1 c Hc' Na) as [E|[_ NF]]; [exact E|]. exfalso. apply NF. unfold no_failure. eapply Forall_impl; [|exact HW].
      intros []; cbn; auto. intros F. split; [exact F|]. unfold overdue. lia.
    - rewrite (T2 c Hc' Na). unfold started, runsb. reflexivity.
  Qed.

  (** What an accepted request knows about the board. *)
  Lemma strict_call : z = STRICT ->
    (forall n, In n a -> In n (names (board ls h)) /\ ~ running (board ls h) n) /\ (forall n, In n b -> running (board ls h) n).
  Proof.
    intros ->. destruct C as [Cn Ci]. destruct (proj1 (accept_strict ls h Cn Ci a b false 0 now ck pr) Hacc) as (K & S & T & _).
    assert (KN : forall n, known (trace ls h) n -> exists c, In c (loaded (trace ls h)) /\ ci_name (snd c) = n) by auto.
    assert (NI : forall n c, ci_name (snd c) = n -> forall l, In n l -> named l c = true).
    { intros n c <- l Hl. rewrite named_isin. now apply isin_spec. }
    split; intros n Hn.
    - destruct (K n (or_introl Hn)) as (c & Hc & En). split.
      + unfold names, board. rewrite map_map. apply in_map_iff. exists c. auto.
      + intros R. unfold running, board in R. apply in_map_iff in R as (d & Ed & Hd). injection Ed as E1 E2.
        apply (T d Hd); [|exact E2]. eapply NI; eauto.
    - destruct (K n (or_intror Hn)) as (c & Hc & En). unfold running, board. apply in_map_iff. exists c. split; [|exact Hc].
      rewrite En. f_equal. apply (S c Hc). eapply NI; eauto.
  Qed.
End SwitchCall.

(** ** inversion of executions *)
Section Inversion.
  Variables (ls : list loader).
  Local Notation runs_to h p h' r := (executes alone ls h p h' (Some r)).

  Lemma bind_inv W {R S} (p : script R) (f : R -> script S) h h' r :
    executes W ls h (bind p f) h' (Some r) -> exists h1 x, executes W ls h p h1 (Some x) /\ executes W ls h1 (f x) h' (Some r).
  Proof.
    intros E. remember (bind p f) as q. remember (Some r) as o. revert p Heqq Heqo.
    induction E as [h o' q h' ro HW E IH | h x | h q | h n env k b h' ro Hi Hr E IH | h n k b h' ro Hi Hr E IH | h k l h' ro Hi Hr E IH
      | h a b z now ck pr k h' ro Hi Hr E IH | h a b z now ck pr mid w ok1 ok2 x k h' ro Hi Hr HW HP Hs Hr2 E IH | h a b z now ck pr mid k Hi Hr HW
      | h fo now ck pr b k h' ro Hi Hr E IH | h fo now ck pr mid w ok1 ok2 x k h' ro Hi Hr HW HP Hs Hr2 E IH | h fo now ck pr mid k Hi Hr HW];
      intros p0 Eq Eo; try discriminate Eo; subst.
    - destruct (IH p0 eq_refl eq_refl) as (h1 & x & E1 & E2). exists h1, x. split; [eapply ex_env; eauto | exact E2].
    - destruct p0; cbn in Eq; try discriminate Eq. exists h, r0. split; [constructor|]. rewrite <- Eq. injection Eo as ->. constructor.
    - destruct p0; cbn in Eq; try discriminate Eq.
      + exists h, r0. split; [constructor|]. rewrite <- Eq. eapply ex_load; eauto.
      + injection Eq as -> ->. destruct (IH _ eq_refl eq_refl) as (h1 & x & E1 & E2). exists h1, x. split; [eapply ex_load; eauto | exact E2].
    - destruct p0; cbn in Eq; try discriminate Eq.
      + exists h, r0. split; [constructor|]. rewrite <- Eq. eapply ex_unload; eauto.
      + injection Eq as -> ->. destruct (IH _ eq_refl eq_refl) as (h1 & x & E1 & E2). exists h1, x. split; [eapply ex_unload; eauto | exact E2].
    - destruct p0; cbn in Eq; try discriminate Eq.
      + exists h, r0. split; [constructor|]. rewrite <- Eq. eapply ex_list; eauto.
      + injection Eq as ->. destruct (IH _ eq_refl eq_refl) as (h1 & x & E1 & E2). exists h1, x. split; [eapply ex_list; eauto | exact E2].
    - destruct p0; cbn in Eq; try discriminate Eq.
      + exists h, r0. split; [constructor|]. rewrite <- Eq. eapply ex_switch_refused; eauto.
      + injection Eq as -> -> -> ->. destruct (IH _ eq_refl eq_refl) as (h1 & x & E1 & E2). exists h1, x. split; [eapply ex_switch_refused; eauto | exact E2].
    - destruct p0; cbn in Eq; try discriminate Eq.
      + exists h, r0. split; [constructor|]. rewrite <- Eq. eapply ex_switch; eauto.
      + injection Eq as -> -> -> ->. destruct (IH _ eq_refl eq_refl) as (h1 & y & E1 & E2). exists h1, y. split; [eapply ex_switch; eauto | exact E2].
    - destruct p0; cbn in Eq; try discriminate Eq.
      + exists h, r0. split; [constructor|]. rewrite <- Eq. eapply ex_reload_now; eauto.
      + injection Eq as -> ->. destruct (IH _ eq_refl eq_refl) as (h1 & x & E1 & E2). exists h1, x. split; [eapply ex_reload_now; eauto | exact E2].
    - destruct p0; cbn in Eq; try discriminate Eq.
      + exists h, r0. split; [constructor|]. rewrite <- Eq. eapply ex_reload; eauto.
      + injection Eq as -> ->. destruct (IH _ eq_refl eq_refl) as (h1 & y & E1 & E2). exists h1, y. split; [eapply ex_reload; eauto | exact E2].
  Qed.

  Lemma longer (h : list op) o h1 : (exists t, h1 = (h ++ [o]) ++ t) -> exists t, h1 = h ++ t.
  Proof. intros [t ->]. exists (o :: t). now rewrite <- app_assoc. Qed.

  Lemma ret_inv {R} h (x : R) h' r : runs_to h (Ret x) h' r -> calm ls h -> r = x /\ calm ls h' /\ board ls h' = board ls h.
  Proof.
    intros E. remember (Ret x) as q. remember (Some r) as o. revert Heqq Heqo.
    induction E as [h o' q h' ro HW E IH | h y | h q | h n' env k' bb h' ro Hi Hr E IH | h n' k' bb h' ro Hi Hr E IH | h k' l h' ro Hi Hr E IH
      | h a' b' z' now ck pr k' h' ro Hi Hr E IH | h a' b' z' now ck pr mid w ok1 ok2 y k' h' ro Hi Hr HW HP Hs Hr2 E IH | h a' b' z' now ck pr mid k' Hi Hr HW
      | h fo now ck pr bb k' h' ro Hi Hr E IH | h fo now ck pr mid w ok1 ok2 y k' h' ro Hi Hr HW HP Hs Hr2 E IH | h fo now ck pr mid k' Hi Hr HW];
      intros Eq Eo C; try discriminate Eq; try discriminate Eo.
    - destruct (env_call ls h o' C HW) as [C1 B1]. destruct (IH Eq Eo C1) as (-> & C2 & B2). rewrite <- B1. auto.
    - injection Eq as ->. injection Eo as ->. auto.
  Qed.

  Lemma load_refused_later n h h1 h2 : (exists t, h1 = h ++ t) -> load_refused ls h1 h2 n -> load_refused ls h h2 n.
  Proof. intros [t ->] (t1 & env & t2 & -> & R & N). exists (t ++ t1), env, t2. rewrite <- !app_assoc in *. auto. Qed.
  Lemma load_refused_earlier n h h1 h2 : (exists t, h2 = h1 ++ t) -> load_refused ls h h1 n -> load_refused ls h h2 n.
  Proof. intros [t ->] (t1 & env & t2 & -> & R & N). exists t1, env, (t2 ++ t). split; [rewrite <- !app_assoc; reflexivity | auto]. Qed.

  Lemma load_inv {R} h n (k : bool -> script R) h' r : runs_to h (CLoad n k) h' r -> calm ls h ->
    exists h1 (b : bool), calm ls h1 /\ board ls h1 = board ls h ++ (if b then [(n, PLoaded)] else []) /\
      (b = true -> ~ In n (names (board ls h))) /\ (b = false -> In n (names (board ls h)) \/ load_refused ls h h1 n) /\
      (exists t, h1 = h ++ t) /\ runs_to h1 (k b) h' r.
  Proof.
    intros E. remember (CLoad n k) as q. remember (Some r) as o. revert Heqq Heqo.
    induction E as [h o' q h' ro HW E IH | h y | h q | h n' env k' bb h' ro Hi Hr E IH | h n' k' bb h' ro Hi Hr E IH | h k' l h' ro Hi Hr E IH
      | h a' b' z' now ck pr k' h' ro Hi Hr E IH | h a' b' z' now ck pr mid w ok1 ok2 y k' h' ro Hi Hr HW HP Hs Hr2 E IH | h a' b' z' now ck pr mid k' Hi Hr HW
      | h fo now ck pr bb k' h' ro Hi Hr E IH | h fo now ck pr mid w ok1 ok2 y k' h' ro Hi Hr HW HP Hs Hr2 E IH | h fo now ck pr mid k' Hi Hr HW];
      intros Eq Eo C; try discriminate Eq; try discriminate Eo.
    - destruct (env_call ls h o' C HW) as [C1 B1]. destruct (IH Eq Eo C1) as (h1 & b & H1). rewrite B1 in H1. exists h1, b.
      destruct H1 as (X1 & X2 & X3 & X4 & X5 & X6). repeat (split; [assumption|]). split; [|split; [eapply longer; eassumption | assumption]].
      intros Eb. destruct (X4 Eb) as [X|X]; [now left | right]. eapply load_refused_later; [|exact X]. eauto.
    - injection Eq as -> ->. subst ro. destruct (load_call ls h n env bb C Hr) as (C1 & B1 & N1). exists (h ++ [Load n env]), bb.
      repeat (split; [assumption|]). split; [|eauto]. intros ->. destruct (in_dec string_dec n (names (board ls h))) as [I|I]; [now left|right].
      exists [], env, []. rewrite app_nil_r. auto.
  Qed.

  Lemma unload_inv {R} h n (k : bool -> script R) h' r : runs_to h (CUnload n k) h' r -> calm ls h ->
    exists h1 (b : bool), calm ls h1 /\ board ls h1 = filter (fun x => negb (String.eqb (fst x) n) || started (snd x)) (board ls h) /\
      (exists t, h1 = h ++ t) /\ runs_to h1 (k b) h' r.
  Proof.
    intros E. remember (CUnload n k) as q. remember (Some r) as o. revert Heqq Heqo.
    induction E as [h o' q h' ro HW E IH | h y | h q | h n' env k' bb h' ro Hi Hr E IH | h n' k' bb h' ro Hi Hr E IH | h k' l h' ro Hi Hr E IH
      | h a' b' z' now ck pr k' h' ro Hi Hr E IH | h a' b' z' now ck pr mid w ok1 ok2 y k' h' ro Hi Hr HW HP Hs Hr2 E IH | h a' b' z' now ck pr mid k' Hi Hr HW
      | h fo now ck pr bb k' h' ro Hi Hr E IH | h fo now ck pr mid w ok1 ok2 y k' h' ro Hi Hr HW HP Hs Hr2 E IH | h fo now ck pr mid k' Hi Hr HW];
      intros Eq Eo C; try discriminate Eq; try discriminate Eo.
    - destruct (env_call ls h o' C HW) as [C1 B1]. destruct (IH Eq Eo C1) as (h1 & b & H1). rewrite B1 in H1. exists h1, b.
      repeat match goal with H : _ /\ _ |- _ => destruct H end. repeat (split; [solve [assumption | eapply longer; eassumption]|]). assumption.
    - injection Eq as -> ->. subst ro. destruct (unload_call_board ls h n bb C Hr) as (C1 & _ & _ & B1). eauto 9.
  Qed.

  Lemma list_inv {R} h (k : list lc_entry -> script R) h' r : runs_to h (CList k) h' r -> calm ls h ->
    exists h1 l, calm ls h1 /\ board ls h1 = board ls h /\
      map (fun e => (en_name e, en_state e)) l = map (fun x => (fst x, phase_string (snd x))) (board ls h) /\ (exists t, h1 = h ++ t) /\ runs_to h1 (k l) h' r.
  Proof.
    intros E. remember (CList k) as q. remember (Some r) as o. revert Heqq Heqo.
    induction E as [h o' q h' ro HW E IH | h y | h q | h n' env k' bb h' ro Hi Hr E IH | h n' k' bb h' ro Hi Hr E IH | h k' l h' ro Hi Hr E IH
      | h a' b' z' now ck pr k' h' ro Hi Hr E IH | h a' b' z' now ck pr mid w ok1 ok2 y k' h' ro Hi Hr HW HP Hs Hr2 E IH | h a' b' z' now ck pr mid k' Hi Hr HW
      | h fo now ck pr bb k' h' ro Hi Hr E IH | h fo now ck pr mid w ok1 ok2 y k' h' ro Hi Hr HW HP Hs Hr2 E IH | h fo now ck pr mid k' Hi Hr HW];
      intros Eq Eo C; try discriminate Eq; try discriminate Eo.
    - destruct (env_call ls h o' C HW) as [C1 B1]. destruct (IH Eq Eo C1) as (h1 & b & H1). rewrite B1 in H1. exists h1, b.
      repeat match goal with H : _ /\ _ |- _ => destruct H end. repeat (split; [solve [assumption | eapply longer; eassumption]|]). assumption.
    - injection Eq as ->. subst ro. destruct (list_call ls h l C Hr) as (C1 & B1 & L1). eauto 9.
  Qed.

  Lemma executes_app W {R} h (p : script R) h' r : executes W ls h p h' r -> exists t, h' = h ++ t.
  Proof.
    induction 1; try (destruct IHexecutes as [t ->]; rewrite <- ?app_assoc; eexists; reflexivity);
      try (exists []; now rewrite app_nil_r); rewrite <- ?app_assoc; eexists; reflexivity.
  Qed.

  Lemma objection_later a b h h1 h2 : (exists t, h1 = h ++ t) -> (exists t, h2 = h1 ++ t) -> objection ls h1 h2 a b -> objection ls h h2 a b.
  Proof.
    intros [t1 ->] _ (t & z & now & ck & pr & t' & -> & O). exists (t1 ++ t), z, now, ck, pr, t'. rewrite !app_assoc. auto.
  Qed.
  Lemma objection_earlier a b h h1 h2 : (exists t, h1 = h ++ t) -> (exists t, h2 = h1 ++ t) -> objection ls h h1 a b -> objection ls h h2 a b.
  Proof.
    intros _ [t2 ->] (t & z & now & ck & pr & t' & -> & O). exists t, z, now, ck, pr, (t' ++ t2). rewrite <- !app_assoc. auto.
  Qed.

  Lemma fits_strict h a b : fits a b (board ls h) <->
    (forall n, In n a \/ In n b -> known (trace ls h) n) /\
    (forall c, In c (loaded (trace ls h)) -> named b c = true -> runs (trace ls h) (fst c)) /\
    (forall c, In c (loaded (trace ls h)) -> named a c = true -> ~ runs (trace ls h) (fst c)).
  Proof.
    pose proof (board_names ls h) as N. unfold names, board in N. rewrite map_map in N. cbn [fst] in N.
    assert (KN : forall n, In n (names (board ls h)) <-> known (trace ls h) n).
    { intros n. unfold names, board. rewrite map_map, in_map_iff. unfold known. cbn [fst]. firstorder. }
    assert (RU : forall n, running (board ls h) n <-> exists c, In c (loaded (trace ls h)) /\ ci_name (snd c) = n /\ runs (trace ls h) (fst c)).
    { intros n. unfold running, board. rewrite in_map_iff. unfold runs. split; intros (c & H); exists c; [destruct H as [E H]; injection E; auto | destruct H as (H & <- & ->); auto]. }
    unfold fits. split.
    - intros [Fa Fb]. repeat split.
      + intros n [Hn|Hn]; [apply KN, (Fa n Hn)|]. destruct (proj1 (RU n) (Fb n Hn)) as (c & Hc & En & _). exists c. auto.
      + intros c Hc Nc. rewrite named_isin in Nc. apply isin_spec in Nc. destruct (proj1 (RU _) (Fb _ Nc)) as (d & Hd & Ed & Rd).
        assert (d = c) by (apply (nodup_map_inj (fun c => ci_name (snd c)) (loaded (trace ls h))); auto). now subst.
      + intros c Hc Nc Rc. rewrite named_isin in Nc. apply isin_spec in Nc. destruct (Fa _ Nc) as [_ X]. apply X, RU. eauto.
    - intros (K & S & T). split.
      + intros n Hn. split; [apply KN, K; auto|]. intros R. apply RU in R as (c & Hc & En & Rc). apply (T c Hc); [|exact Rc].
        rewrite named_isin, En. now apply isin_spec.
      + intros n Hn. destruct (K n (or_intror Hn)) as (c & Hc & En). apply RU. exists c. repeat split; auto. apply (S c Hc).
        rewrite named_isin, En. now apply isin_spec.
  Qed.

  Lemma switch_inv {R} h a b z (k : bool -> script R) h' r : runs_to h (CSwitch a b z k) h' r -> calm ls h ->
    exists h1 (x : bool), calm ls h1 /\ board ls h1 = (if x then switched a b (board ls h) else board ls h) /\
      (x = true -> z = STRICT -> fits a b (board ls h)) /\
      (x = false -> (z = STRICT /\ fits a b (board ls h) \/ z <> STRICT /\ forall n, In n a -> In n b -> False) ->
         objection ls h h1 a b) /\ (exists t, h1 = h ++ t) /\
      runs_to h1 (k x) h' r.
  Proof.
    intros E. remember (CSwitch a b z k) as q. remember (Some r) as o. revert Heqq Heqo.
    induction E as [h o' q h' ro HW E IH | h y | h q | h n' env k' bb h' ro Hi Hr E IH | h n' k' bb h' ro Hi Hr E IH | h k' l h' ro Hi Hr E IH
      | h a' b' z' now ck pr k' h' ro Hi Hr E IH | h a' b' z' now ck pr mid w ok1 ok2 y k' h' ro Hi Hr HW HP Hs Hr2 E IH | h a' b' z' now ck pr mid k' Hi Hr HW
      | h fo now ck pr bb k' h' ro Hi Hr E IH | h fo now ck pr mid w ok1 ok2 y k' h' ro Hi Hr HW HP Hs Hr2 E IH | h fo now ck pr mid k' Hi Hr HW];
      intros Eq Eo C; try discriminate Eq; try discriminate Eo.
    - destruct (env_call ls h o' C HW) as [C1 B1]. destruct (IH Eq Eo C1) as (h1 & x & H1). rewrite B1 in H1.
      exists h1, x. destruct H1 as (X1 & X2 & X3 & X4 & X5 & X6). repeat (split; [assumption|]). split; [|split; [|assumption]].
      + intros F0 F1. apply (objection_later a b h (h ++ [o']) h1); eauto.
      + destruct X5 as [t ->]. exists (o' :: t). now rewrite <- app_assoc.
    - injection Eq as -> -> -> ->. subst ro. destruct (refused_call ls h a b z now ck pr C Hr) as (C1 & B1).
      eexists; exists false. split; [exact C1|]. split; [exact B1|]. split; [discriminate|]. split; [|split; [eauto | exact E]].
      intros _ F. exists [], z, now, ck, pr, []. rewrite !app_nil_r. split.
      + reflexivity.
      + destruct C as [Cn Ci]. destruct F as [[-> F]|[Z F]].
        * assert (N : ~ strict_ok (trace ls h) a b ck pr) by (intros X; apply (accept_strict ls h Cn Ci a b false 0 now ck pr) in X; congruence).
          apply fits_strict in F as (K & S & T). unfold strict_ok in N.
          destruct (ck (would_run (trace ls h) a b)) eqn:Ec; [now left|].
          destruct (pr (to_start (trace ls h) a) (to_stop (trace ls h) b)) eqn:Ep; [|now right]. exfalso. apply N. auto.
        * assert (N : ~ lenient_ok (trace ls h) a b ck pr) by (intros X; apply (accept_lenient ls h Cn Ci a b z false 0 now ck pr Z) in X; congruence).
          unfold lenient_ok in N.
          destruct (ck (would_run (trace ls h) a b)) eqn:Ec; [now left|].
          destruct (pr (to_start (trace ls h) a) (to_stop (trace ls h) b)) eqn:Ep; [|now right]. exfalso. apply N. repeat split; auto.
          intros c _ _ Na Nb. rewrite named_isin in Na, Nb. apply isin_spec in Na, Nb. eauto.
    - injection Eq as -> -> -> ->. subst ro. destruct HP as [-> ->].
      destruct (switch_call ls h a b z now ck pr C mid Hr HW Hs w y Hr2) as (-> & C1 & B1).
      eexists; exists true. split; [exact C1|]. split; [exact B1|]. split; [|split; [discriminate | split; [rewrite <- !app_assoc; eauto | exact E]]].
      intros _ Z. exact (strict_call ls h a b z now ck pr C mid Hr Hs Z).
  Qed.

  Lemma reload_inv {R} h (k : bool -> script R) h' r : runs_to h (CReload true k) h' r -> calm ls h ->
    exists h1 x, (x = true -> calm ls h1 /\ board ls h1 = []) /\ (exists t, h1 = h ++ t) /\ runs_to h1 (k x) h' r.
  Proof.
    intros E. remember (CReload true k) as q. remember (Some r) as o. revert Heqq Heqo.
    induction E as [h o' q h' ro HW E IH | h y | h q | h n' env k' bb h' ro Hi Hr E IH | h n' k' bb h' ro Hi Hr E IH | h k' l h' ro Hi Hr E IH
      | h a' b' z' now ck pr k' h' ro Hi Hr E IH | h a' b' z' now ck pr mid w ok1 ok2 y k' h' ro Hi Hr HW HP Hs Hr2 E IH | h a' b' z' now ck pr mid k' Hi Hr HW
      | h fo now ck pr bb k' h' ro Hi Hr E IH | h fo now ck pr mid w ok1 ok2 y k' h' ro Hi Hr HW HP Hs Hr2 E IH | h fo now ck pr mid k' Hi Hr HW];
      intros Eq Eo C; try discriminate Eq; try discriminate Eo.
    - destruct (env_call ls h o' C HW) as [C1 B1]. destruct (IH Eq Eo C1) as (h1 & x & H1 & H2 & H3). exists h1, x. split; [exact H1|]. split; [now apply longer in H2 | exact H3].
    - injection Eq as -> ->. subst ro. eexists; exists bb. split; [|split; [eauto | exact E]]. intros ->.
      destruct C as [Cn Ci]. unfold reply in Hr. pose proof (inv_reach ls h) as HI.
      destruct (controller_names (reach ls h)) eqn:En.
      + assert (L : cm_list (reach ls h) = []) by (unfold controller_names in En; destruct (cm_list (reach ls h)); [reflexivity | discriminate]).
        assert (S : step (reach ls h) (Reload true now ck pr) = (reach ls h, reload_events 0 (cm_loaders (reach ls h)), ABool true)).
        { cbn [step]. unfold idle in Ci. rewrite Ci, En. unfold reload_tail. cbn [unload_all]. now rewrite L. }
        split; [apply calm_snoc; [split; auto | exact Logic.I|]; unfold idle; destruct (reach_snoc ls h (Reload true now ck pr)) as [-> _]; now rewrite S|].
        unfold board. rewrite <- (inv_list _ _ (inv_reach ls (h ++ [Reload true now ck pr]))).
        destruct (reach_snoc ls h (Reload true now ck pr)) as [-> _]. rewrite S. cbn [fst]. now rewrite L.
      + exfalso. cbn [step] in Hr. unfold idle in Ci. rewrite Ci, En in Hr. cbn [negb] in Hr.
        destruct (switch_begin _ _ _ _ _ _ _ _ _ _) as [[? ?] [|]]; discriminate Hr.
    - injection Eq as -> ->. subst ro. destruct HP as [-> ->]. exists (((h ++ [Reload true now ck pr]) ++ mid) ++ [Poll w true true]), y. split; [|split; [rewrite <- !app_assoc; eauto | exact E]]. intros ->.
      destruct C as [Cn Ci]. destruct (reload_true ls h Ci true now ck pr mid Cn Hr Hs w true true Hr2) as (L & _).
      destruct (reload_frame ls h Ci true now ck pr mid Cn Hr Hs) as (_ & _ & _ & (ns & tmo & F4) & _).
      split; [|unfold board; now rewrite L]. split.
      + unfold no_abandoned in *. rewrite !Forall_app. repeat split; auto; try (repeat constructor; fail). apply (alone_clean mid HW).
      + unfold idle. destruct (reach_snoc ls ((h ++ [Reload true now ck pr]) ++ mid) (Poll w true true)) as [-> _].
        unfold reply in Hr2. cbn [step] in *. rewrite F4 in *. unfold poll in *. cbn [andb negb] in *.
        destruct (sw_do _); [destruct (_ || _); [discriminate|]; cbn in *; discriminate|]. unfold switch_return in *.
        assert (UA : forall l s, cm_call (fst (fst (unload_all l s))) = cm_call s).
        { induction l as [|n l IHl]; intros s; [reflexivity|]. cbn [unload_all]. pose proof (unload_call n s) as U.
          destruct (CMModel.unload_controller n s) as [[s1 e1] [|]]; cbn in *; [|exact U]. specialize (IHl s1). destruct (unload_all l s1) as [[s2 e2] ok2]. cbn in *. congruence. }
        unfold reload_tail in *. specialize (UA ns (set_switch (reach ls ((h ++ [Reload true now ck pr]) ++ mid))
          (cm_sw (reach ls ((h ++ [Reload true now ck pr]) ++ mid))) [] [] (cm_hwstart (reach ls ((h ++ [Reload true now ck pr]) ++ mid)))
          (cm_hwstop (reach ls ((h ++ [Reload true now ck pr]) ++ mid))) Idle)).
        destruct (unload_all ns _) as [[s1 e1] [|]]; [|discriminate Hr2]. destruct (cm_list s1); [exact UA | discriminate Hr2].
  Qed.
End Inversion.
