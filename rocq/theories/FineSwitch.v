(** Making a list current, handing over a switch request, waiting; the simulation. *)
From Verif Require Import HwTypes Lifecycle CMModel CMSpec CMInv CMCycle CMLife FineModel FineSpec FineBase FineRel FineLoop FineManage FineLock.

Lemma events_agree h h' l : (forall c, In c l -> h (sp_inst c) = h' (sp_inst c)) ->
  (forall t p, upd_events t p h l = upd_events t p h' l) /\ (forall t, reset_events t h l = reset_events t h' l).
Proof.
  intros H. assert (F : filter (fun c => is_running h (sp_inst c)) l = filter (fun c => is_running h' (sp_inst c)) l).
  { apply filter_ext_in. intros c Hc. unfold is_running. now rewrite (H c Hc). }
  unfold upd_events, reset_events. now rewrite F.
Qed.
Lemma in_skipn {A} k (l : list A) x : In x (skipn k l) -> In x l.
Proof. intros H. rewrite <- (firstn_skipn k l). apply in_or_app. now right. Qed.
Lemma rest_agree p h h' l : (forall c, In c l -> h (sp_inst c) = h' (sp_inst c)) -> rest p h l = rest p h' l.
Proof.
  intros H. destruct (events_agree h h' l H) as [U S].
  assert (G : forall k, (forall t p, upd_events t p h (skipn k l) = upd_events t p h' (skipn k l)) /\ (forall t, reset_events t h (skipn k l) = reset_events t h' (skipn k l))).
  { intros k. apply events_agree. intros c Hc. apply H. eapply in_skipn; exact Hc. }
  destruct p as [|b c|k [|] c e|k c e| | | |]; cbn [rest]; try reflexivity; unfold cyc_events; rewrite ?U, ?S, ?(proj1 (G _)), ?(proj2 (G _)); reflexivity.
Qed.

(** A list is made current: the cycle in progress, if any, has taken effect before, and its list is the former one. *)
Lemma commit_rel s a lo sr p e m' a2 sr2 e' :
  R s (mkObj a lo sr) -> f_nrt s = NReady p e -> (forall b c, f_rt s = RtLoaded b c -> f_used s <> None) ->
  (forall i, (i < cm_next (f_m s))%nat -> cm_heap m' i = cm_heap (f_m s) i /\ cm_heap a2 i = cm_heap a i) ->
  (forall i, (cm_next (f_m s) <= i)%nat -> cm_heap m' i = cm_heap a2 i) ->
  (cm_next (f_m s) <= cm_next m')%nat -> cm_next a2 = cm_next m' -> cm_loaders a2 = cm_loaders m' ->
  cm_list a2 = f_list s (negb (f_cur s)) -> (forall c, In c (f_list s (negb (f_cur s))) -> (sp_inst c < cm_next m')%nat) ->
  plain_sw (f_rt s) m' a2 -> sr2 = SDone (ABool true) (e' ++ dropped (f_list s (f_cur s)) (f_list s (negb (f_cur s)))) ->
  R (f_set_nrt (f_set_cur (f_set_m s m') (negb (f_cur s))) (NWait2 (f_cur s) e'))
    (mkObj a2 (match cyc_of (f_rt s) with None => LNone | Some c => LDone (cyc_events c (cm_heap a) (f_list s (f_cur s))) end) sr2).
Proof.
  intros [B M V W L] P F Hl Hg Hx Hn Ho El Hin Hsw ->.
  assert (N : not_wait2 (f_nrt s) = true) by now rewrite P. destruct (calm_bufs s B N) as [Cu Cb].
  assert (Q : managing (f_rt s) = false) by apply Hsw.
  set (s' := f_set_nrt _ _).
  assert (X : loopbuf s' = loopbuf s) by reflexivity.
  assert (Y : forall b, f_list s' b = f_list s b) by (unfold s'; destruct s as [l0 l1 cur used m rt nrt]; intros []; reflexivity).
  assert (Fc : f_cur s' = negb (f_cur s)) by reflexivity. assert (Fu : f_used s' = f_used s) by reflexivity. assert (Fr : f_rt s' = f_rt s) by reflexivity.
  assert (Fm : f_m s' = m') by reflexivity. assert (Fn : f_nrt s' = NWait2 (f_cur s) e') by reflexivity.
  clearbody s'. destruct B as (B1 & B2 & B3 & B4). destruct M as (M1 & M2 & M3 & M4). cbn [o_cm] in *. specialize (M4 Q).
  assert (Hmid : forall k c ev u, f_rt s = RtReset k true c ev -> f_used s = Some u -> exists sp, nth_error (f_list s u) k = Some sp /\
                 cm_heap (f_m s) (sp_inst sp) = STOPPED /\ (sp_inst sp < cm_next (f_m s))%nat).
  { intros k c ev u Er Eu. rewrite Er in B4. destruct (B4 u Eu) as (sp & H1 & H2). exists sp. split; [exact H1|]. split; [exact H2|].
    apply (B3 u); [right; unfold loopbuf; rewrite Er; exact Eu|]. eapply nth_error_In; exact H1. }
  constructor.
  - unfold bufs. rewrite X, Fc, Fu, Fr, Fm, Fn. split; [exact B1|]. split; [|split].
    + split; [now rewrite Bool.negb_involutive|]. intros Hb. destruct Cu as [Cu|Cu]; [|exact Cu]. exfalso.
      unfold loopbuf in Hb. destruct (f_rt s) eqn:Er; try discriminate Hb; try (now apply (B1 eq_refl)); try (rewrite Cu in Hb; discriminate Hb). eapply F; [reflexivity|exact Cu].
    + intros b c [->|Hb] Hc; rewrite Y in Hc; [now apply Hin|]. assert (K := B3 b c (or_intror Hb) Hc). lia.
    + destruct (f_rt s) as [| |k [|] c ev| | | | |] eqn:Er; try exact I. intros u Hu. destruct (Hmid _ _ _ _ eq_refl Hu) as (sp & H1 & H2 & H3).
      exists sp. rewrite Y. split; [exact H1|]. destruct (Hl _ H3) as [-> _]. exact H2.
  - unfold mem_rel; cbn [o_cm]. rewrite Fc, Fr, Fm, Y. split; [exact El|]. split; [exact Hn|]. split; [exact Ho|]. intros _ i.
    unfold settled in M4 |- *. rewrite Fr, Fu, Fm. specialize (M4 i).
    destruct (f_rt s) as [| |k [|] c ev| | | | |] eqn:Er;
      try (destruct (Nat.lt_ge_cases i (cm_next (f_m s))) as [Hi|Hi]; [destruct (Hl _ Hi) as [-> ->]; exact M4|exact (Hg _ Hi)]).
    destruct (f_used s) as [u|] eqn:Eu.
    2:{ destruct (Nat.lt_ge_cases i (cm_next (f_m s))) as [Hi|Hi]; [destruct (Hl _ Hi) as [-> ->]; exact M4|exact (Hg _ Hi)]. }
    destruct (Hmid _ _ _ _ eq_refl eq_refl) as (sp & H1 & H2 & H3). rewrite Y. rewrite H1 in M4 |- *. unfold upd in *.
    destruct (Nat.eqb_spec i (sp_inst sp)) as [->|Ne]; [destruct (Hl _ H3) as [_ ->]; exact M4|].
    destruct (Nat.lt_ge_cases i (cm_next (f_m s))) as [Hi|Hi]; [destruct (Hl _ Hi) as [-> ->]; exact M4|exact (Hg _ Hi)].
  - unfold srv_rel; cbn [o_cm o_srv]. rewrite Fc, Fn, !Y, Bool.negb_involutive. reflexivity.
  - apply (sw_plain s'); [now rewrite Fn|]. rewrite Fr, Fm. exact Hsw.
  - unfold loop_rel in *; cbn [o_cm o_loop] in *. rewrite X, Fc, Fr. destruct (cyc_of (f_rt s)) as [c|] eqn:Ec; [|reflexivity]. rewrite Q in *.
    destruct L as (b & Eb & L). exists b. split; [exact Eb|].
    assert (b = f_cur s) by (destruct Cb as [Cb|Cb]; rewrite Cb in Eb; [discriminate Eb|now injection Eb]). subst b. rewrite Bool.eqb_reflx in L. rewrite Y.
    replace (Bool.eqb (f_cur s) (negb (f_cur s))) with false by (destruct (f_cur s); reflexivity). f_equal. destruct L as [_ L]. rewrite <- L. f_equal.
    apply rest_agree. intros x Hx'. destruct (Hl (sp_inst x)) as [_ E]; [apply (B3 (f_cur s)); auto|]. now rewrite E.
Qed.

(** The cycle in progress, if any, takes effect. *)
Lemma effect_now s a lo sr p e : R s (mkObj a lo sr) -> f_nrt s = NReady p e ->
  exists h', heq h' (cm_heap a) /\
    history (mkObj a lo sr) [] (mkObj (set_heap a h') (match cyc_of (f_rt s) with None => LNone | Some c => LDone (cyc_events c (cm_heap a) (f_list s (f_cur s))) end) sr).
Proof.
  intros HR P. assert (Pl : plain (f_nrt s) = true) by now rewrite P. destruct (plain_quiet _ _ HR Pl) as (Q & Ci & Hd). cbn [o_cm] in *.
  destruct HR as [B M V W L]. unfold loop_rel in L; cbn [o_cm o_loop] in L. destruct (cyc_of (f_rt s)) as [c|].
  - rewrite Q in L. destruct L as (b & Eb & L). assert (N : not_wait2 (f_nrt s) = true) by now rewrite P. destruct (calm_bufs s B N) as [_ Cb].
    assert (b = f_cur s) by (destruct Cb as [Cb|Cb]; rewrite Cb in Eb; [discriminate Eb|now injection Eb]). subst b. rewrite Bool.eqb_reflx in L. destruct L as [-> _].
    destruct (cycle_quiet c a Hd) as (h' & Hh & Es). destruct M as (M1 & _). cbn [o_cm] in M1. rewrite M1 in Es.
    exists h'. split; [exact Hh|]. apply history_one. econstructor. exact Es.
  - exists (cm_heap a). split; [apply heq_refl|]. subst lo. destruct a; constructor.
Qed.

Lemma step_commit s o p e s' ls : f_nrt s = NReady p e -> (forall b c, f_rt s = RtLoaded b c -> f_used s <> None) ->
  R s o -> f_step s = Some (s', ls) -> exists o', history o ls o' /\ R s' o'.
Proof.
  intros P F HR E. unfold f_step in E. rewrite P in E. destruct o as [a lo sr].
  destruct (effect_now _ _ _ _ _ _ HR P) as (h' & Hh & H1).
  assert (Pl : plain (f_nrt s) = true) by now rewrite P. assert (W := proj1 (sw_plain _ _ Pl) (r_sw _ _ HR)). cbn [o_cm] in W.
  destruct W as (W1 & W2 & W3 & W4 & W5 & W6 & W7 & W8 & W9 & W10).
  assert (V := r_srv _ _ HR). unfold srv_rel in V. rewrite P in V. cbn [o_srv o_cm] in V.
  destruct (r_mem _ _ HR) as (M1 & M2 & M3 & _). cbn [o_cm] in M1, M2, M3.
  assert (B3 := proj1 (proj2 (proj2 (r_bufs _ _ HR)))). specialize (B3 (f_cur s)).
  destruct p as [sp|].
  - destruct V as (V1 & n & env & -> & V2). injection E as <- <-.
    assert (Ei : sp_inst sp = cm_next (f_m s)) by (destruct V2 as (_ & _ & ty & cl & _ & _ & _ & ->); exact M2).
    assert (V3 : loads n env (set_heap a h') sp e) by exact V2. assert (St := loads_ok _ _ _ _ _ V3).
    eexists. split.
    + eapply (history_app _ []); [exact H1|]. apply history_one. eapply (o_effect_srv _ _ _ _ _ (ABool true)); [|discriminate|discriminate].
      unfold step; cbn [set_heap cm_call]. rewrite W2. fold (set_heap a h'). rewrite St. reflexivity.
    + eapply commit_rel; [exact HR|exact P|exact F|..]; cbn [loaded set_heap cm_heap cm_next cm_loaders cm_list].
      * intros i Hi. unfold upd. destruct (Nat.eqb_spec i (sp_inst sp)); [lia|]. split; [reflexivity|apply Hh].
      * intros i Hi. unfold upd. destruct (Nat.eqb_spec i (sp_inst sp)); [reflexivity|]. rewrite (Hh i).
        assert (Mh := proj2 (proj2 (proj2 (r_mem _ _ HR))) W1). cbn [o_cm] in Mh. specialize (Mh i). unfold settled in Mh.
        destruct (f_rt s) as [| |k [|] c ev| | | | |] eqn:Er; try exact Mh. destruct (f_used s) as [u|] eqn:Eu; [|exact Mh].
        assert (B4 := proj2 (proj2 (proj2 (r_bufs _ _ HR)))). rewrite Er in B4. destruct (B4 u Eu) as (sp' & N1 & N2). rewrite N1 in Mh. unfold upd in Mh.
        destruct (Nat.eqb_spec i (sp_inst sp')) as [->|]; [|exact Mh]. exfalso.
        assert (sp_inst sp' < cm_next (f_m s))%nat; [|lia]. eapply (proj1 (proj2 (proj2 (r_bufs _ _ HR)))); [right; unfold loopbuf; rewrite Er; exact Eu|]. eapply nth_error_In; exact N1.
      * lia.
      * reflexivity.
      * exact M3.
      * now rewrite M1, V1.
      * rewrite V1. intros c Hc. apply in_app_or in Hc as [Hc|[<-|[]]]; [|lia]. specialize (B3 c (or_introl eq_refl) Hc). lia.
      * repeat split; assumption.
      * rewrite V1. rewrite (dropped_incl (f_list s (f_cur s))); [now rewrite app_nil_r|]. apply incl_appl, incl_refl.
  - destruct V as (n & -> & -> & V). injection E as <- <-.
    eexists. split.
    + eapply (history_app _ []); [exact H1|]. apply history_one. eapply (o_effect_srv _ _ _ _ _ (ABool true)); [|discriminate|discriminate].
      apply unload_step; [exact W2|]. cbn [set_heap cm_heap cm_list]. rewrite (unload_scan_heq _ _ _ _ Hh), M1. exact V.
    + replace (f_set_nrt (f_set_cur s (negb (f_cur s))) (NWait2 (f_cur s) [])) with (f_set_nrt (f_set_cur (f_set_m s (f_m s)) (negb (f_cur s))) (NWait2 (f_cur s) [])) by now rewrite f_set_m_id.
      eapply commit_rel; [exact HR|exact P|exact F|..]; cbn [set_list set_heap cm_heap cm_next cm_loaders cm_list].
      * intros i Hi. split; [reflexivity|apply Hh].
      * intros i Hi. rewrite (Hh i).
        assert (Mh := proj2 (proj2 (proj2 (r_mem _ _ HR))) W1). cbn [o_cm] in Mh. specialize (Mh i). unfold settled in Mh.
        destruct (f_rt s) as [| |k [|] c ev| | | | |] eqn:Er; try exact Mh. destruct (f_used s) as [u|] eqn:Eu; [|exact Mh].
        assert (B4 := proj2 (proj2 (proj2 (r_bufs _ _ HR)))). rewrite Er in B4. destruct (B4 u Eu) as (sp' & N1 & N2). rewrite N1 in Mh. unfold upd in Mh.
        destruct (Nat.eqb_spec i (sp_inst sp')) as [->|]; [|exact Mh]. exfalso.
        assert (sp_inst sp' < cm_next (f_m s))%nat; [|lia]. eapply (proj1 (proj2 (proj2 (r_bufs _ _ HR)))); [right; unfold loopbuf; rewrite Er; exact Eu|]. eapply nth_error_In; exact N1.
      * lia.
      * exact M2.
      * exact M3.
      * reflexivity.
      * intros c Hc. apply B3; [now left|]. eapply unload_scan_incl; [exact V|exact Hc].
      * repeat split; assumption.
      * now rewrite M1.
Qed.

Lemma step_switch s o q s' ls : f_nrt s = NSw q -> mid_reset (f_rt s) = false -> R s o -> f_step s = Some (s', ls) -> exists o', history o ls o' /\ R s' o'.
Proof.
  intros P Hm HR E. unfold f_step in E. rewrite P in E. destruct o as [a lo sr].
  assert (V := r_srv _ _ HR). unfold srv_rel in V. rewrite P in V. cbn [o_srv o_cm] in V. destruct V as [-> Vq].
  destruct q as [| |sa sb st asap tmo now_ ck pr| | | | | |]; try discriminate Vq. clear Vq.
  assert (Pl : plain (f_nrt s) = true) by now rewrite P. assert (K : keeps_incl (f_nrt s) = true) by now rewrite P.
  assert (W := proj1 (sw_plain _ _ Pl) (r_sw _ _ HR)). cbn [o_cm] in W. destruct W as (W1 & W2 & W3 & W4 & W5 & W6 & W7 & W8 & W9 & W10).
  destruct (r_mem _ _ HR) as (M1 & M2 & M3 & _). cbn [o_cm] in M1, M2, M3. assert (H := seen _ _ HR W1 Hm). cbn [o_cm] in H.
  rewrite (not_walking s W1) in E.
  assert (Fr : _) by (apply (switch_begin_frame sa sb st asap tmo now_ ck pr a (set_list (f_m s) (f_list s (f_cur s))));
    cbn [set_list cm_list cm_heap cm_start cm_stop cm_hwstart cm_hwstop]; try congruence; first [exact H|now apply heq_sym]). cbv zeta in Fr.
  destruct Fr as (Fa & F & F1 & F2 & F3).
  assert (Rf := switch_refused sa sb st asap tmo now_ ck pr a W7 W8).
  rewrite F in E. clear F. remember (switch_begin sa sb st asap tmo now_ ck pr KReturn a) as r eqn:Er. destruct r as [[a1 e] ok]; cbn [fst snd] in *.
  cbn [set_switch cm_start cm_stop cm_hwstart cm_hwstop cm_sw] in E. destruct ok.
  - injection E as <- <-. exists (mkObj a lo (SCalled (Switch sa sb st asap tmo now_ ck pr))). split; [constructor|]. rewrite m_as.
    eapply lock_move; [exact HR|exact W1|now rewrite P|reflexivity|..]; cbn [set_switch cm_heap cm_next cm_list cm_loaders]; auto; try discriminate.
    + intros _. apply (free_incl _ _ HR K).
    + exact I.
    + unfold sw_rel; cbn [f_nrt f_set_nrt f_rt f_set_list f_set_m f_m o_cm o_srv set_switch cm_sw cm_start cm_stop cm_hwstart cm_hwstop].
      split; [exact W1|]. split; [exact W2|]. split; [reflexivity|]. split; [exact W4|].
      exists sa, sb, st, asap, now_, ck, pr. split; [reflexivity|]. rewrite <- Er. cbn [fst snd]. auto 10.
  - injection E as <- <-. destruct (F2 eq_refl) as [F4 F5]. destruct (Rf eq_refl) as [R1 R2].
    exists (mkObj a1 lo SNone). split.
    + eapply history_two; [|constructor]. eapply (o_effect_srv _ _ _ _ _ (ABool false)); [|discriminate|discriminate]. unfold step. rewrite W2, <- Er. reflexivity.
    + rewrite m_as. eapply lock_move; [exact HR|exact W1|now rewrite P|reflexivity|..]; try (rewrite Fa; cbn [set_switch cm_heap cm_next cm_list cm_loaders]); auto; try discriminate.
      * intros _. apply (free_incl _ _ HR K).
      * reflexivity.
      * apply (sw_plain (f_set_nrt _ _)); [reflexivity|]. unfold plain_sw; cbn [f_nrt f_set_nrt f_rt f_set_list f_set_m f_m o_cm o_srv set_switch cm_sw cm_start cm_stop cm_hwstart cm_hwstop].
        rewrite R1, R2, F4, F5. repeat split. exact W1.
Qed.

Lemma step_hand s o sw tmo e s' ls : f_nrt s = NHand sw tmo e -> R s o -> f_step s = Some (s', ls) -> exists o', history o ls o' /\ R s' o'.
Proof.
  intros P HR E. unfold f_step in E. rewrite P in E. destruct o as [a lo sr]. injection E as <- <-.
  assert (W := r_sw _ _ HR). unfold sw_rel in W. rewrite P in W. cbn [o_cm o_srv] in W.
  destruct W as (W1 & W2 & W3 & W4 & sa & sb & st & asap & now_ & ck & pr & -> & W5).
  destruct (r_mem _ _ HR) as (M1 & M2 & M3 & _). cbn [o_cm] in M1, M2, M3. assert (K : keeps_incl (f_nrt s) = true) by now rewrite P.
  destruct (switch_begin_frame sa sb st asap tmo now_ ck pr a a) as (Fa & _ & F1 & _ & F3); try reflexivity; [apply heq_refl|].
  remember (switch_begin sa sb st asap tmo now_ ck pr KReturn a) as r eqn:Er. destruct r as [[a1 e1] ok]; cbn [fst snd] in *.
  destruct W5 as (-> & -> & -> & S1 & S2 & S3 & S4). assert (Hc := F1 eq_refl). clear F1.
  exists (mkObj a1 lo (SWaiting e1)). split.
  - apply history_one. eapply o_effect_switch. unfold step. rewrite W2, <- Er. reflexivity.
  - unfold f_set_sw. rewrite m_as. eapply lock_move; [exact HR|exact W1|now rewrite P|reflexivity|..]; try (rewrite Fa; cbn [set_switch cm_heap cm_next cm_list cm_loaders]); auto; try discriminate.
    + intros _. apply (free_incl _ _ HR K).
    + exact I.
    + unfold sw_rel; cbn [f_nrt f_set_nrt f_rt f_set_list f_set_m f_m o_cm o_srv set_switch cm_sw cm_start cm_stop cm_hwstart cm_hwstop].
      rewrite Hc, S1, S2, S3, S4. repeat split.
Qed.

Lemma step_call s o q s' ls : R s o -> fine_step s (FCall q) = Some (s', ls) -> exists o', history o ls o' /\ R s' o'.
Proof.
  intros HR E. cbn in E. destruct (f_nrt s) eqn:P; try discriminate E. destruct (f_entry q) as [p|] eqn:Q; [|discriminate E]. injection E as <- <-.
  destruct o as [a lo sr]. assert (V := r_srv _ _ HR). unfold srv_rel in V. rewrite P in V. cbn [o_srv] in V. subst sr.
  exists (mkObj a lo (SCalled q)). split; [apply history_one; constructor; destruct q; try discriminate Q; reflexivity|]. rewrite nrt_as.
  assert (Fi := free_incl _ _ HR). rewrite P in Fi. specialize (Fi eq_refl).
  destruct q; try discriminate Q; cbn [f_entry] in Q; injection Q as <-;
    (eapply plain_move; [exact HR|now rewrite P|reflexivity|now rewrite P|reflexivity|intros _; exact Fi|discriminate|]; repeat split).
Qed.

Lemma step_reg s o l s' ls : R s o -> fine_step s (FReg l) = Some (s', ls) -> exists o', history o ls o' /\ R s' o'.
Proof.
  intros [B M V W L] E. cbn in E. injection E as <- <-. destruct o as [a lo sr].
  exists (mkObj (set_loaders a (cm_loaders a ++ [l])) lo sr). split; [apply history_one; constructor|].
  destruct s as [l0 l1 cur used m rt nrt]. destruct M as (M1 & M2 & M3 & M4). cbn [o_cm f_m] in *. constructor.
  - exact B.
  - split; [exact M1|]. split; [exact M2|]. split; [cbn; now rewrite M3|exact M4].
  - unfold srv_rel in *. cbn [f_nrt o_cm o_srv f_set_m f_cur] in *. destruct nrt as [| | |[]| | |[]| | | | | | |]; try exact V.
    + destruct V as (Z0 & n & env & Z1 & Z2). split; [exact Z0|]. exists n, env. split; [exact Z1|]. apply (loads_frame n env a); [reflexivity|reflexivity| |exact Z2]. right; exists l; reflexivity.
    + destruct V as (Z0 & n & env & Z1 & Z2). split; [exact Z0|]. exists n, env. split; [exact Z1|]. apply (loads_frame n env a); [reflexivity|reflexivity| |exact Z2]. right; exists l; reflexivity.
  - unfold sw_rel in *. cbn [f_nrt o_cm o_srv f_set_m f_m f_rt] in *. destruct nrt; try exact W.
    destruct W as (Z1 & Z2 & Z3 & Z4 & a0 & b0 & st & asap & now_ & ck & pr & Z5 & Z6). do 4 (split; [assumption|]).
    exists a0, b0, st, asap, now_, ck, pr. split; [exact Z5|].
    destruct (switch_begin_frame a0 b0 st asap timeout now_ ck pr a (set_loaders a (cm_loaders a ++ [l]))) as (_ & F & _); try reflexivity; [apply heq_refl|].
    rewrite F. exact Z6.
  - exact L.
Qed.

Lemma step_poll s o w s' ls : R s o -> gives_up (f_nrt s) w = false -> f_poll w true true s = Some (s', ls) -> exists o', history o ls o' /\ R s' o'.
Proof.
  intros HR G E. unfold f_poll in E. cbn [andb negb] in E. destruct o as [a lo sr].
  destruct (f_nrt s) as [|q| | | | | |f e| | | | | |tmo e] eqn:P; try discriminate E.
  - (* first wait *)
    assert (V := r_srv _ _ HR). unfold srv_rel in V. rewrite P in V.
    assert (Fi := free_incl _ _ HR). rewrite P in Fi. specialize (Fi eq_refl).
    destruct (match f_used s with Some u => _ | None => false end); injection E as <- <-; (exists (mkObj a lo sr); split; [constructor|]); [exact HR|].
    rewrite nrt_as. eapply plain_move; [exact HR|now rewrite P|reflexivity|now rewrite P|reflexivity|intros _; exact Fi|discriminate|]. exact V.
  - (* second wait *)
    destruct (match f_used s with Some u => _ | None => false end) eqn:Hs; injection E as <- <-; (exists (mkObj a lo sr); split; [constructor|]); [exact HR|].
    destruct HR as [B M V W L]. constructor.
    + destruct B as (B1 & B2 & B3 & B4). rewrite P in B2. destruct B2 as [-> B2]. split; [exact B1|]. split; [|split; [exact B3|exact B4]].
      cbn [f_nrt f_set_nrt f_used f_cur]. change (loopbuf (f_set_nrt s (NClear (negb (f_cur s)) e))) with (loopbuf s). split; [|split; [|reflexivity]].
      * destruct (f_used s) as [u|]; [right|now left]. f_equal. destruct u, (f_cur s); try reflexivity; discriminate Hs.
      * destruct (loopbuf s) as [b|]; [right|now left]. destruct (Bool.bool_dec b (negb (f_cur s))) as [->|Ne].
        -- rewrite (B2 eq_refl) in Hs. destruct (f_cur s); discriminate Hs.
        -- f_equal. destruct b, (f_cur s); try reflexivity; destruct (Ne eq_refl).
    + exact M.
    + unfold srv_rel in *. rewrite P in V. exact V.
    + unfold sw_rel in *. rewrite P in W. exact W.
    + exact L.
  - (* the switch *)
    cbn [gives_up] in G. apply Bool.negb_false_iff in G. rewrite G in E.
    assert (W := r_sw _ _ HR). unfold sw_rel in W. rewrite P in W. cbn [o_cm o_srv] in W. destruct W as (W1 & -> & W2 & W3 & W4 & W5 & W6).
    destruct (r_mem _ _ HR) as (M1 & M2 & M3 & _). cbn [o_cm] in M1, M2, M3. assert (K : keeps_incl (f_nrt s) = true) by now rewrite P.
    destruct (sw_do (cm_sw (f_m s))) eqn:Hd; [injection E as <- <-; exists (mkObj a lo (SWaiting e)); split; [constructor|exact HR]|].
    assert (Q : managing (f_rt s) = false).
    { destruct (managing (f_rt s)) eqn:Q; [|reflexivity]. destruct (get_loop _ _ HR Q) as (c & _ & _ & _ & Hd' & Km & _). cbn [o_cm] in *. exfalso.
      unfold man_rel in Km. destruct (f_rt s); try contradiction; destruct Km as (Km & _); rewrite Km in Hd; cbn in Hd; congruence. }
    specialize (W6 Q). rewrite (not_walking s Q) in E. injection E as <- <-. 
    exists (mkObj (set_switch a (cm_sw a) [] [] (cm_hwstart a) (cm_hwstop a) Idle) lo SNone). split.
    + rewrite <- (app_nil_r e) at 2. eapply history_two; [|constructor]. eapply (o_effect_poll _ _ _ _ _ (ABool true)); [|discriminate|discriminate]. unfold step. rewrite W1. unfold poll. rewrite <- W6, Hd. cbn [andb].
      unfold switch_return. now rewrite W6.
    + rewrite m_as. eapply lock_move; [exact HR|exact Q|now rewrite P|reflexivity|..]; cbn [set_switch cm_heap cm_next cm_list cm_loaders]; auto; try discriminate.
      * intros _. apply (free_incl _ _ HR K).
      * reflexivity.
      * apply (sw_plain (f_set_nrt _ _)); [reflexivity|]. unfold plain_sw; cbn [f_nrt f_set_nrt f_rt f_set_list f_set_m f_m o_cm o_srv set_switch cm_sw cm_start cm_stop cm_hwstart cm_hwstop cm_call].
        repeat split; try assumption. now rewrite <- W6.
Qed.

Lemma simulation s o a s' ls : R s o -> ros_up s a = true -> in_time s a = true -> first_cycle_alone s a = true -> no_peeping s a = true -> fine_step s a = Some (s', ls) -> exists o', history o ls o' /\ R s' o'.
Proof.
  intros HR U T C1 C2 E. destruct a as [c| | |q|w ok1 ok2| |l].
  - eapply cycle_read; eauto.
  - eapply cycle_publish; eauto.
  - eapply loop_step; eauto.
  - eapply step_call; eauto.
  - apply andb_prop in U as [-> ->]. apply Bool.negb_true_iff in T. eapply step_poll; eauto.
  - cbn [fine_step] in E. unfold first_cycle_alone in C1. unfold no_peeping in C2.
    assert (Hl : forall b c, f_rt s = RtLoaded b c -> f_used s <> None) by (intros b c Er Eu; rewrite Er, Eu in C1; discriminate C1).
    assert (Hm : examines (f_nrt s) = true -> mid_reset (f_rt s) = false).
    { intros X. destruct (f_rt s) as [| |k [|] c ev| | | | |]; try reflexivity. rewrite X in C2. discriminate C2. }
    destruct (f_nrt s) as [|q|q|q k r e|n env e|sp e|p e|f e|f e|k acc| |q|sw tmo e|tmo e] eqn:P; try (unfold f_step in E; rewrite P in E; discriminate E).
    + eapply step_clear_to; eauto.
    + eapply step_copy; eauto. destruct q; cbn [examines] in Hm; auto; right; discriminate.
    + eapply step_make; eauto.
    + eapply step_append; eauto.
    + eapply step_commit; eauto.
    + eapply step_clear; eauto.
    + eapply step_listing; eauto.
    + eapply step_types; eauto.
    + eapply step_switch; eauto.
    + eapply step_hand; eauto.
  - eapply step_reg; eauto.
Qed.

Lemma refines acts : forall s o s' ls, R s o -> calm s acts -> fine_run s acts = Some (s', ls) -> exists o', history o ls o' /\ R s' o'.
Proof.
  induction acts as [|a acts IH]; intros s o s' ls HR C E; unfold calm in *; cbn [throughout fine_run] in *.
  - injection E as <- <-. exists o. split; [constructor|exact HR].
  - destruct C as (U & T & C & K). apply andb_prop in U as [U1 U2]. apply andb_prop in T as [T1 T2]. apply andb_prop in C as [C1 C2]. apply andb_prop in K as [K1 K2].
    destruct (fine_step s a) as [[s1 e1]|] eqn:E1; [|discriminate E].
    destruct (fine_run s1 acts) as [[s2 e2]|] eqn:E2; [|discriminate E]. injection E as <- <-.
    destruct (simulation _ _ _ _ _ HR U1 T1 C1 K1 E1) as (o1 & H1 & R1). destruct (IH _ _ _ _ R1 (conj U2 (conj T2 (conj C2 K2))) E2) as (o2 & H2 & R2).
    exists o2. split; [eapply history_app; eauto|exact R2].
Qed.
