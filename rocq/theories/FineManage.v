(** Steps of the control loop while it switches controllers. *)
From Verif Require Import HwTypes Lifecycle CMModel CMSpec CMInv CMCycle CMLife FineModel FineSpec FineBase FineRel FineLoop.

Definition alike (m m' : cm) : Prop :=
  cm_next m' = cm_next m /\ cm_start m' = cm_start m /\ cm_stop m' = cm_stop m /\ cm_hwstart m' = cm_hwstart m /\ cm_hwstop m' = cm_hwstop m /\
  cm_loaders m' = cm_loaders m.

Lemma in_switch s o : sw_rel s o -> managing (f_rt s) = true -> exists tmo e, f_nrt s = NSwitch tmo e.
Proof.
  unfold sw_rel. intros W M. destruct (f_nrt s); try (destruct W as (W & _); congruence). eauto.
Qed.

Lemma manage_move s o m' p' :
  R s o -> managing (f_rt s) = true -> managing p' = true -> cyc_of p' = cyc_of (f_rt s) -> alike (f_m s) m' ->
  man_rel (f_set_rt (f_set_m s m') p') (o_cm o) -> R (f_set_rt (f_set_m s m') p') o.
Proof.
  intros [B M V W L] Q Q' C (A1 & A2 & A3 & A4 & A5 & A6) K. destruct (in_switch _ _ W Q) as (tmo & e & N).
  destruct s as [l0 l1 cur used m rt nrt]. cbn [f_rt f_m f_nrt] in *. subst nrt.
  assert (X : loopbuf (mkF l0 l1 cur used m rt (NSwitch tmo e)) = used) by (unfold loopbuf; cbn; destruct rt; try discriminate Q; reflexivity).
  assert (Y : loopbuf (f_set_rt (f_set_m (mkF l0 l1 cur used m rt (NSwitch tmo e)) m') p') = used) by (unfold loopbuf; cbn; destruct p'; try discriminate Q'; reflexivity).
  assert (U : in_update rt = true) by (destruct rt; try discriminate Q; reflexivity).
  constructor.
  - destruct B as (B1 & B2 & B3 & B4). unfold bufs. rewrite Y. rewrite X in B2, B3. cbn [f_rt f_used f_nrt f_cur f_m f_set_rt f_set_m f_l0 f_l1] in *.
    split; [intros _; now apply B1|]. split; [exact B2|]. split; [rewrite A1; exact B3|]. destruct p' as [| |? []| | | | |]; try discriminate Q'; exact I.
  - destruct M as (M1 & M2 & M3 & M4). unfold mem_rel; cbn [f_rt f_set_rt f_set_m f_m f_cur] in *. rewrite A1, A6, Q'. repeat split; try assumption. discriminate.
  - exact V.
  - unfold sw_rel in *; cbn [f_rt f_nrt f_m f_set_rt f_set_m] in *. rewrite A2, A3, A4, A5, Q'. intuition discriminate.
  - unfold loop_rel in *; cbn [f_rt f_nrt f_m f_set_rt f_set_m f_used f_cur] in *. rewrite C, Q'. rewrite Q in L.
    destruct (cyc_of rt) as [c|]; [|exact L]. destruct L as (L1 & L2 & L3 & _). repeat split; assumption.
Qed.

Lemma manage_end s a sr c m' a' e :
  R s (mkObj a (LCalled c) sr) -> managing (f_rt s) = true -> alike (f_m s) m' ->
  step a (cyc_op c) = (a', e, ANone) -> heq (cm_heap m') (cm_heap a') -> cm_sw m' = cm_sw a' ->
  cm_list a' = cm_list a -> alike a a' -> cm_call a' = cm_call a ->
  exists o', history (mkObj a (LCalled c) sr) [LRet e] o' /\ R (f_set_rt (f_set_m s m') RtIdle) o'.
Proof.
  intros [B M V W L] Q (A1 & A2 & A3 & A4 & A5 & A6) Es Hh Hs El (C1 & C2 & C3 & C4 & C5 & C6) Ec. destruct (in_switch _ _ W Q) as (tmo & ev & N).
  destruct s as [l0 l1 cur used m rt nrt]. cbn [f_rt f_m f_nrt] in *. subst nrt.
  exists (mkObj a' LNone sr). split; [eapply history_two; [econstructor; exact Es|constructor]|].
  assert (X : loopbuf (mkF l0 l1 cur used m rt (NSwitch tmo ev)) = used) by (unfold loopbuf; cbn; destruct rt; try discriminate Q; reflexivity).
  constructor.
  - destruct B as (B1 & B2 & B3 & B4). unfold bufs, loopbuf. rewrite X in B2, B3. cbn [f_rt f_used f_nrt f_cur f_m f_set_rt f_set_m f_l0 f_l1 in_update] in *.
    split; [discriminate|]. split; [split; [apply B2|]; split; [now left|apply B2]|]. split; [|exact I].
    rewrite A1. intros b x [->|H]; [apply B3; now left|discriminate H].
  - destruct M as (M1 & M2 & M3 & M4). unfold mem_rel; cbn [f_rt f_set_rt f_set_m f_m f_cur o_cm] in *. rewrite A1, A6, El, C1, C6. repeat split; try assumption. intros _. exact Hh.
  - exact V.
  - unfold sw_rel in *; cbn [f_rt f_nrt f_m f_set_rt f_set_m o_cm o_srv] in *. rewrite A2, A3, A4, A5, C2, C3, C4, C5, Ec.
    destruct W as (W1 & W2 & W3 & W4 & W5 & W6 & W7). do 6 (split; [assumption|]). intros _. exact Hs.
  - reflexivity.
Qed.

Lemma alike_refl m : alike m m. Proof. repeat split. Qed.
Lemma f_set_m_id s : f_set_m s (f_m s) = s. Proof. destruct s; reflexivity. Qed.

Lemma get_loop s o : R s o -> managing (f_rt s) = true ->
  exists c, cyc_of (f_rt s) = Some c /\ f_used s = Some (f_cur s) /\ o = mkObj (o_cm o) (LCalled c) (o_srv o) /\ sw_do (cm_sw (o_cm o)) = true /\ man_rel s (o_cm o) /\
    cm_start (f_m s) = cm_start (o_cm o) /\ cm_stop (f_m s) = cm_stop (o_cm o) /\
      cm_hwstart (f_m s) = cm_hwstart (o_cm o) /\ cm_hwstop (f_m s) = cm_hwstop (o_cm o) /\ cm_list (o_cm o) = f_list s (f_cur s).
Proof.
  intros [B M V W L] Q. destruct (in_switch _ _ W Q) as (tmo & ev & N). unfold loop_rel in L. rewrite Q in L.
  destruct (cyc_of (f_rt s)) as [c|] eqn:C; [|destruct (f_rt s); discriminate].
  destruct L as (L1 & L2 & L3 & L4). exists c. split; [reflexivity|]. split; [exact L1|]. split; [destruct o; cbn in *; now subst|]. split; [exact L3|]. split; [exact L4|].
  unfold sw_rel in W. rewrite N in W. destruct W as (_ & _ & W1 & W2 & W3 & W4 & _). repeat split; try assumption. apply M.
Qed.

Lemma do_step c e s o s' ls : f_rt s = RtDo c e -> R s o -> f_loop s = Some (s', ls) -> exists o', history o ls o' /\ R s' o'.
Proof.
  intros P HR E. assert (Q : managing (f_rt s) = true) by now rewrite P.
  destruct (get_loop _ _ HR Q) as (c' & Hc & Hu & _ & Hd & K & S1 & S2 & S3 & S4 & _). unfold man_rel in K. rewrite P in K, Hc. injection Hc as <-.
  destruct K as (K1 & K2 & K3).
  unfold f_loop in E. rewrite Hu, P in E. destruct (sw_started (cm_sw (f_m s))) eqn:St; injection E as <- <-; exists o; (split; [constructor|]).
  - rewrite <- (f_set_m_id s) at 1. apply manage_move; try assumption; rewrite ?P; auto using alike_refl.
    unfold man_rel; cbn [f_rt f_m f_set_rt f_set_m]. unfold do_event. rewrite <- K1, St. unfold stop_part; cbn [firstn for_each fst snd app]. split; [|split; [exact K2|now rewrite app_nil_r]].
    unfold sw_set_started. rewrite <- St. now destruct (cm_sw (f_m s)).
  - apply manage_move; try assumption; rewrite ?P; auto; [repeat split|].
    unfold man_rel; cbn [f_rt f_m f_set_rt f_set_m set_switch cm_sw cm_heap]. unfold do_event. rewrite <- K1, St. unfold stop_part; cbn [firstn for_each fst snd app].
    split; [reflexivity|]. split; [exact K2|]. now rewrite K3, S3, S4.
Qed.

Lemma each_snoc {A} (f : heap -> A -> heap * list event) l k a h0 h : respects f -> nth_error l k = Some a -> heq h (fst (for_each f h0 (firstn k l))) ->
  heq (fst (f h a)) (fst (for_each f h0 (firstn (S k) l))) /\ snd (for_each f h0 (firstn (S k) l)) = snd (for_each f h0 (firstn k l)) ++ snd (f h a).
Proof.
  intros Hf Hn Hh. rewrite (firstn_S _ _ _ Hn), for_each_app, for_each_one; cbn [fst snd].
  destruct (Hf _ _ a Hh) as [F1 F2]. split; [exact F1|now rewrite F2].
Qed.

Lemma stop_step k c e s o s' ls : f_rt s = RtStop k c e -> R s o -> f_loop s = Some (s', ls) -> exists o', history o ls o' /\ R s' o'.
Proof.
  intros P HR E. assert (Q : managing (f_rt s) = true) by now rewrite P.
  destruct (get_loop _ _ HR Q) as (c' & Hc & Hu & _ & Hd & K & S1 & S2 & S3 & S4 & _). unfold man_rel in K. rewrite P in K, Hc. injection Hc as <-.
  destruct K as (K1 & K2 & K3).
  unfold f_loop in E. rewrite Hu, P in E. destruct (nth_error (cm_stop (f_m s)) k) as [i|] eqn:Hn.
  - rewrite S2 in Hn. destruct (each_snoc (stop_body (c_t c)) _ _ _ _ _ (respects_stop_body _) Hn K2) as [F1 F2].
    destruct (stop_body (c_t c) (cm_heap (f_m s)) i) as [h1 e1]; cbn [fst snd] in *. injection E as <- <-. exists o. split; [constructor|].
    apply manage_move; try assumption; rewrite ?P; auto; [repeat split|].
    unfold man_rel; cbn [f_rt f_m f_set_rt f_set_m set_heap cm_sw cm_heap]. split; [exact K1|]. split; [exact F1|].
    unfold stop_part at 1. rewrite F2, K3. unfold stop_part. now rewrite <- !app_assoc.
  - rewrite S2 in Hn. injection E as <- <-. exists o. split; [constructor|]. rewrite <- (f_set_m_id s) at 1.
    assert (Z1 : stop_part (c_t c) (o_cm o) k = stopped (c_t c) (o_cm o)) by (unfold stop_part, stopped; now rewrite (firstn_end _ _ Hn)).
    rewrite Z1 in *. rewrite K1. cbn [sw_set_started sw_asap].
    destruct (sw_asap (cm_sw (o_cm o))) eqn:Ha; apply manage_move; try assumption; rewrite ?P; auto using alike_refl;
      unfold man_rel; cbn [f_rt f_m f_set_rt f_set_m]; (split; [exact K1|]); (split; [exact Ha|]).
    + unfold asap_part; cbn [firstn for_each fst snd]. split; [exact K2|]. now rewrite app_nil_r.
    + split; [reflexivity|]. unfold start_part; cbn [firstn for_each fst snd]. split; [exact K2|]. now rewrite app_nil_r.
Qed.

Lemma start_step md k c e s o s' ls : f_rt s = RtStart md k c e -> R s o -> f_loop s = Some (s', ls) -> exists o', history o ls o' /\ R s' o'.
Proof.
  intros P HR E. assert (Q : managing (f_rt s) = true) by now rewrite P.
  destruct (get_loop _ _ HR Q) as (c' & Hc & Hu & Eo & Hd & K & S1 & S2 & S3 & S4 & S5). unfold man_rel in K. rewrite P in K, Hc. injection Hc as <-.
  destruct K as (K1 & K2 & K3 & K4 & K5).
  unfold f_loop in E. rewrite Hu, P in E. destruct (nth_error (cm_start (f_m s)) k) as [i|] eqn:Hn.
  - rewrite S1 in Hn. destruct (each_snoc (mode_request md (c_t c)) _ _ _ _ _ (respects_mode _ _) Hn K4) as [F1 F2].
    destruct (mode_request md (c_t c) (cm_heap (f_m s)) i) as [h1 e1]; cbn [fst snd] in *. injection E as <- <-. exists o. split; [constructor|].
    apply manage_move; try assumption; rewrite ?P; auto; [repeat split|].
    unfold man_rel; cbn [f_rt f_m f_set_rt f_set_m set_heap cm_sw cm_heap]. split; [exact K1|]. split; [exact K2|]. split; [exact K3|]. split; [exact F1|].
    unfold start_part at 1. rewrite F2, K5. unfold start_part. now rewrite <- !app_assoc.
  - rewrite S1 in Hn.
    assert (Z1 : start_part md (c_t c) (o_cm o) k = start_part md (c_t c) (o_cm o) (length (cm_start (o_cm o)))) by (unfold start_part; now rewrite (firstn_end _ _ Hn), firstn_all).
    rewrite Z1 in *. subst md.
    destruct (cycle_start c (o_cm o) _ e Hd K2 K4 K5) as (a' & Es & Hh & T1 & T2 & T3 & T4 & T5 & T6 & T7 & T8 & T9).
    rewrite Eo in HR |- *.
    assert (AA : alike (o_cm o) a') by (repeat split; assumption).
    destruct (start_mode (c_t c) (c_hw c) (cm_sw (o_cm o))); injection E as <- <-.
    + eapply manage_end; [exact HR|exact Q|repeat split|exact Es|exact Hh| |exact T1|exact AA|exact T8]. cbn [set_switch cm_sw]. now rewrite T9, K1.
    + eapply manage_end; [exact HR|exact Q|repeat split|exact Es|exact Hh| |exact T1|exact AA|exact T8]. cbn [set_switch cm_sw]. now rewrite T9, K1.
    + replace (f_set_rt s RtIdle) with (f_set_rt (f_set_m s (f_m s)) RtIdle) by now rewrite f_set_m_id.
      eapply manage_end; [exact HR|exact Q|repeat split|exact Es|exact Hh| |exact T1|exact AA|exact T8]. now rewrite T9, K1.
Qed.

Lemma nth_combine_seq {A} (l : list A) k i : nth_error l k = Some i -> nth_error (combine (seq 0 (length l)) l) k = Some (k, i).
Proof.
  assert (G : forall n k i, nth_error l k = Some i -> nth_error (combine (seq n (length l)) l) k = Some ((n + k)%nat, i)).
  { induction l as [|a l IH]; intros n [|k'] j E; cbn in *; try discriminate E; [injection E as ->; now rewrite Nat.add_0_r|].
    rewrite (IH (S n) _ _ E). do 2 f_equal. lia. }
  apply (G 0%nat).
Qed.

Lemma asap_step k c e s o s' ls : f_rt s = RtAsap k c e -> R s o -> f_loop s = Some (s', ls) -> exists o', history o ls o' /\ R s' o'.
Proof.
  intros P HR E. assert (Q : managing (f_rt s) = true) by now rewrite P.
  destruct (get_loop _ _ HR Q) as (c' & Hc & Hu & Eo & Hd & K & S1 & S2 & S3 & S4 & S5). unfold man_rel in K. rewrite P in K, Hc. injection Hc as <-.
  destruct K as (K1 & K2 & K4 & K5).
  unfold f_loop in E. rewrite Hu, P in E. destruct (nth_error (cm_start (f_m s)) k) as [i|] eqn:Hn.
  - rewrite S1 in Hn. destruct (each_snoc (asap_outer (c_t c) (c_hw c) (cm_sw (o_cm o)) (cm_list (o_cm o))) _ _ _ _ _ (respects_asap_outer _ _ _ _) (nth_combine_seq _ _ _ Hn) K4) as [F1 F2].
    unfold asap_outer in F1 at 1. unfold asap_outer in F2 at 3. cbn [fst snd] in F1, F2.
    destruct (is_running (cm_heap (f_m s)) i); cbn [fst snd] in *.
    + injection E as <- <-. exists o. split; [constructor|]. rewrite <- (f_set_m_id s) at 1.
      apply manage_move; try assumption; rewrite ?P; auto; [repeat split|].
      unfold man_rel; cbn [f_rt f_m f_set_rt f_set_m]. split; [exact K1|]. split; [exact K2|]. split; [exact F1|].
      unfold asap_part at 1. rewrite F2, app_nil_r. exact K5.
    + rewrite K1, <- S5 in E. 
      change (asap_inner (c_t c) (c_hw c) (sw_set_started (cm_sw (o_cm o))) k i) with (asap_inner (c_t c) (c_hw c) (cm_sw (o_cm o)) k i) in E.
      destruct (for_each (asap_inner _ _ _ _ _) _ _) as [h1 e1]; cbn [fst snd] in *. injection E as <- <-. exists o. split; [constructor|].
      apply manage_move; try assumption; rewrite ?P; auto; [repeat split|].
      unfold man_rel; cbn [f_rt f_m f_set_rt f_set_m set_heap cm_sw cm_heap]. split; [exact K1|]. split; [exact K2|]. split; [exact F1|].
      unfold asap_part at 1. rewrite F2, K5. unfold asap_part. now rewrite <- !app_assoc.
  - rewrite S1 in Hn.
    assert (Z1 : asap_part (c_t c) (c_hw c) (o_cm o) k = asap_part (c_t c) (c_hw c) (o_cm o) (length (cm_start (o_cm o)))).
    { unfold asap_part. f_equal. apply nth_error_None in Hn. rewrite !firstn_all2; [reflexivity|..]; rewrite combine_length, seq_length; lia. }
    rewrite Z1 in *.
    destruct (cycle_asap c (o_cm o) _ e Hd K2 K4 K5) as (a' & Es & Hh & T1 & T2 & T3 & T4 & T5 & T6 & T7 & T8 & T9).
    rewrite Eo in HR |- *.
    assert (AA : alike (o_cm o) a') by (repeat split; assumption). rewrite S1 in E.
    destruct (forallb _ _); injection E as <- <-.
    + eapply manage_end; [exact HR|exact Q|repeat split|exact Es|exact Hh| |exact T1|exact AA|exact T8]. cbn [set_switch cm_sw]. now rewrite T9, K1.
    + replace (f_set_rt s RtIdle) with (f_set_rt (f_set_m s (f_m s)) RtIdle) by now rewrite f_set_m_id.
      eapply manage_end; [exact HR|exact Q|repeat split|exact Es|exact Hh| |exact T1|exact AA|exact T8]. now rewrite T9, K1.
Qed.

Lemma loop_step s o s' ls : R s o -> f_loop s = Some (s', ls) -> exists o', history o ls o' /\ R s' o'.
Proof.
  intros HR E. destruct (f_rt s) as [|b c|k mid c e|k c e|c e|k c e|md k c e|k c e] eqn:P.
  - unfold f_loop in E. rewrite P in E. destruct (f_used s); discriminate E.
  - unfold f_loop in E. rewrite P in E. destruct (f_used s); discriminate E.
  - eapply reset_step; eauto.
  - eapply update_step; eauto.
  - eapply do_step; eauto.
  - eapply stop_step; eauto.
  - eapply start_step; eauto.
  - eapply asap_step; eauto.
Qed.
