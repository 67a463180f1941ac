(** Steps of the control loop. *)
From Verif Require Import HwTypes Lifecycle CMModel CMSpec CMInv CMCycle CMLife FineModel FineSpec FineBase FineRel.

Lemma cycle_read s o c s' ls : R s o -> fine_step s (FCycle c) = Some (s', ls) -> exists o', history o ls o' /\ R s' o'.
Proof.
  intros [B M V W L] E. destruct s as [l0 l1 cur used m rt nrt]. destruct o as [a lo sr]. cbn in E.
  destruct rt; try discriminate E. injection E as <- <-. unfold loop_rel in L; cbn in L. subst lo.
  exists (mkObj a (LCalled c) sr). split; [apply history_one; constructor|]. constructor.
  - destruct B as (B1 & B2 & B3 & B4). unfold bufs, f_set_rt, loopbuf, f_list in *; cbn in *. repeat split; try discriminate.
    + destruct nrt; try tauto. split; [tauto|]. intros H. injection H as H. exfalso. destruct B2 as [-> _]. destruct cur; discriminate H.
    + intros b x [->|H]; [apply B3; now left|]. injection H as <-. apply B3; now left.
  - exact M.
  - exact V.
  - exact W.
  - unfold loop_rel; cbn. exists cur. split; [reflexivity|]. rewrite Bool.eqb_reflx. split; reflexivity.
Qed.

Lemma cycle_publish s o s' ls : R s o -> fine_step s FPublish = Some (s', ls) -> exists o', history o ls o' /\ R s' o'.
Proof.
  intros [B M V W L] E. destruct s as [l0 l1 cur used m rt nrt]. destruct o as [a lo sr]. cbn in E.
  destruct rt as [|b c| | | | | |]; try discriminate E. injection E as <- <-. 
  exists (mkObj a lo sr). split; [constructor|].
  set (p := if c_reset c then RtReset 0 false c [] else RtUpdate 0 c []).
  assert (P : managing p = false /\ in_update p = true /\ sofar p = [] /\ cyc_of p = Some c /\
              (forall h l, rest p h l = cyc_events c h l) /\ (forall k c' e, p <> RtReset k true c' e)).
  { unfold p, cyc_events. destruct (c_reset c); repeat split; discriminate. }
  destruct P as (P1 & P2 & P3 & P4 & P5 & P6).
  assert (Q : loopbuf (mkF l0 l1 cur (Some b) m p nrt) = Some b) by (unfold loopbuf, p; cbn; destruct (c_reset c); reflexivity).
  constructor.
  - destruct B as (B1 & B2 & B3 & B4). unfold bufs, f_set_rt, f_set_used; cbn [f_rt f_used f_nrt f_cur f_m f_l0 f_l1].
    fold p. rewrite Q. cbn [loopbuf f_rt f_used f_cur f_nrt] in *. unfold f_list in *; cbn [f_l0 f_l1] in *.
    split; [discriminate|]. split; [|split].
    + destruct nrt; try (destruct B2 as (_ & [H|H] & B2); [discriminate H|injection H as ->; auto]).
      destruct B2 as [-> B2]. split; [reflexivity|]. auto.
    + intros b' x [->|H]; [apply B3; now left|]. injection H as <-. apply B3; now right.
    + destruct p as [| |k [|] c' e| | | | |]; trivial. destruct (P6 k c' e); reflexivity.
  - destruct M as (M1 & M2 & M3 & M4). split; [exact M1|]. split; [exact M2|]. split; [exact M3|].
    intros _. unfold settled; cbn. fold p. specialize (M4 eq_refl). unfold settled in M4; cbn in M4.
    destruct p as [| |k [|] c' e| | | | |]; try exact M4. destruct (P6 k c' e); reflexivity.
  - exact V.
  - unfold sw_rel, f_set_rt, f_set_used; cbn [f_rt f_nrt f_m]. fold p. rewrite P1.
    unfold sw_rel in W; cbn [f_rt f_nrt f_m managing] in W. exact W.
  - unfold loop_rel, f_set_rt, f_set_used in *; cbn [f_rt f_nrt f_m f_cur f_used f_l0 f_l1] in *. fold p. rewrite P4, P1. exists b. split; [exact Q|].
    unfold loopbuf in L; cbn [cyc_of managing f_rt sofar rest] in L. destruct L as (b' & H & L). injection H as <-.
    rewrite P3, P5. exact L.
Qed.

Lemma upd_events_nil t p h : upd_events t p h [] = []. Proof. reflexivity. Qed.
Lemma upd_events_cons t p h c l : upd_events t p h (c :: l) = (if is_running h (sp_inst c) then [EvCb (sp_inst c) (CbUpdate p) t] else []) ++ upd_events t p h l.
Proof. unfold upd_events. cbn. destruct (is_running _ _); reflexivity. Qed.
Lemma reset_events_cons t h c l : reset_events t h (c :: l) =
  (if is_running h (sp_inst c) then [EvCb (sp_inst c) CbStopping t; EvCb (sp_inst c) CbStarting t] else []) ++ reset_events t h l.
Proof. unfold reset_events. cbn. destruct (is_running _ _); reflexivity. Qed.
Lemma upd_upd h i x y : heq (upd (upd h i x) i y) (upd h i y).
Proof. intros j. unfold upd. destruct (Nat.eqb j i); reflexivity. Qed.
Lemma upd_id h i x : h i = x -> heq (upd h i x) h.
Proof. intros E j. unfold upd. destruct (Nat.eqb_spec j i); congruence. Qed.

(** A step of the loops over the list keeps the relation if it moves on in its program and leaves the settled states alone. *)
Lemma quiet_move s o h' p' :
  R s o -> managing (f_rt s) = false -> managing p' = false -> in_update (f_rt s) = true -> in_update p' = true ->
  cyc_of p' = cyc_of (f_rt s) ->
  heq (settled (f_set_rt (f_set_heap s h') p')) (settled s) ->
  match p' with RtReset k true _ _ => forall u, f_used s = Some u -> exists sp, nth_error (f_list s u) k = Some sp /\ h' (sp_inst sp) = STOPPED | _ => True end ->
  (forall u h, f_used s = Some u -> heq (settled s) h ->
     sofar p' ++ rest p' h (f_list s u) = sofar (f_rt s) ++ rest (f_rt s) h (f_list s u)) ->
  R (f_set_rt (f_set_heap s h') p') o.
Proof.
  intros [B M V W L] Q Q' U U' C H K E. destruct s as [l0 l1 cur used m rt nrt]. cbn [f_rt f_used] in *.
  assert (X : loopbuf (mkF l0 l1 cur used m rt nrt) = used) by (unfold loopbuf; cbn; destruct rt; try discriminate U; reflexivity).
  assert (Y : loopbuf (f_set_rt (f_set_heap (mkF l0 l1 cur used m rt nrt) h') p') = used) by (unfold loopbuf; cbn; destruct p'; try discriminate U'; reflexivity).
  constructor.
  - destruct B as (B1 & B2 & B3 & B4). unfold bufs. rewrite Y. rewrite X in B2, B3. cbn [f_rt f_used f_nrt f_cur f_m f_set_rt f_set_heap f_set_m f_l0 f_l1 set_heap cm_next] in *.
    split; [intros _; now apply B1|]. split; [exact B2|]. split; [exact B3|exact K].
  - destruct M as (M1 & M2 & M3 & M4). split; [exact M1|]. split; [exact M2|]. split; [exact M3|]. intros _.
    eapply heq_trans; [exact H|]. apply M4. exact Q.
  - exact V.
  - unfold sw_rel in *; cbn [f_rt f_nrt f_m f_set_rt f_set_heap f_set_m set_heap cm_start cm_stop cm_hwstart cm_hwstop cm_sw] in *. rewrite Q'. rewrite Q in W. exact W.
  - unfold loop_rel in *. rewrite Y. rewrite X in L. cbn [f_rt f_nrt f_m f_set_rt f_set_heap f_set_m f_cur f_l0 f_l1] in *. rewrite C, Q'.
    destruct (cyc_of rt) as [c|]; [|exact L]. rewrite Q in L. destruct L as (b & Eb & L). exists b. split; [exact Eb|].
    specialize (E b (cm_heap (o_cm o)) Eb). destruct M as (_ & _ & _ & M4). specialize (E (M4 Q)).
    change (f_list _ b) with (f_list (mkF l0 l1 cur used m rt nrt) b). cbv zeta. rewrite E. exact L.
Qed.

Lemma f_set_heap_id s : f_set_heap s (cm_heap (f_m s)) = s.
Proof. destruct s as [l0 l1 cur used m rt nrt]. destruct m. reflexivity. Qed.

Lemma reset_step k mid c e s o s' ls : f_rt s = RtReset k mid c e ->
  R s o -> f_loop s = Some (s', ls) -> exists o', history o ls o' /\ R s' o'.
Proof.
  intros P HR E. unfold f_loop in E. destruct (f_used s) as [u|] eqn:Hu; [|discriminate E]. rewrite P in E.
  destruct mid.
  - assert (N := proj2 (proj2 (proj2 (r_bufs _ _ HR)))). rewrite P in N. destruct (N u Hu) as (sp & Hn & Hst). clear N.
    rewrite Hn in E. unfold start_request in E. rewrite Hst in E. injection E as <- <-. exists o. split; [constructor|].
    apply quiet_move; rewrite ?P; auto.
    + unfold settled. rewrite P. cbn [f_rt f_set_rt f_set_heap f_set_m f_used f_m]. rewrite Hu, Hn. apply heq_refl.
    + intros u' h Hu' Hh. rewrite Hu in Hu'; injection Hu' as <-. cbn [sofar rest]. rewrite Hn, <- app_assoc. reflexivity.
  - destruct (nth_error (f_list s u) k) as [sp|] eqn:Hn.
    + destruct (is_running (cm_heap (f_m s)) (sp_inst sp)) eqn:Hr.
      * assert (Hr' := Hr). apply is_running_spec in Hr'. unfold stop_request in E. rewrite Hr' in E. injection E as <- <-.
        exists o. split; [constructor|]. apply quiet_move; rewrite ?P; auto.
        -- unfold settled at 2. rewrite P. unfold settled. cbn [f_rt f_set_rt f_set_heap f_set_m f_used f_m]. rewrite Hu.
           change (f_list _ u) with (f_list s u). rewrite Hn. cbn [set_heap cm_heap].
           eapply heq_trans; [apply upd_upd|]. apply upd_id. exact Hr'.
        -- intros u' Hu'. rewrite Hu in Hu'; injection Hu' as <-. exists sp. split; [exact Hn|]. unfold upd. now rewrite Nat.eqb_refl.
        -- intros u' h Hu' Hh. rewrite Hu in Hu'; injection Hu' as <-. cbn [sofar rest]. rewrite (skipn_S _ _ _ Hn), Hn.
           unfold settled in Hh. rewrite P in Hh. rewrite reset_events_cons, <- (heq_running _ _ _ Hh), Hr. rewrite <- !app_assoc. reflexivity.
      * injection E as <- <-. exists o. split; [constructor|]. rewrite <- (f_set_heap_id s) at 1. apply quiet_move; rewrite ?P; auto.
        -- unfold settled. rewrite P. cbn. apply heq_refl.
        -- intros u' h Hu' Hh. rewrite Hu in Hu'; injection Hu' as <-. cbn [sofar rest]. rewrite (skipn_S _ _ _ Hn).
           unfold settled in Hh. rewrite P in Hh. rewrite reset_events_cons, <- (heq_running _ _ _ Hh), Hr. reflexivity.
    + injection E as <- <-. exists o. split; [constructor|]. rewrite <- (f_set_heap_id s) at 1. apply quiet_move; rewrite ?P; auto.
      * unfold settled. rewrite P. cbn. apply heq_refl.
      * intros u' h Hu' Hh. rewrite Hu in Hu'; injection Hu' as <-. cbn [sofar rest]. rewrite (skipn_end _ _ Hn). reflexivity.
Qed.

Lemma heap_upd_ev h t p i : update_request t p h i = (h, if is_running h i then [EvCb i (CbUpdate p) t] else []).
Proof. unfold update_request, is_running. destruct (h i); reflexivity. Qed.

Lemma update_step k c e s o s' ls : f_rt s = RtUpdate k c e ->
  R s o -> f_loop s = Some (s', ls) -> exists o', history o ls o' /\ R s' o'.
Proof.
  intros P HR E. unfold f_loop in E. destruct (f_used s) as [u|] eqn:Hu; [|discriminate E]. rewrite P in E.
  destruct (nth_error (f_list s u) k) as [sp|] eqn:Hn.
  - rewrite heap_upd_ev in E. injection E as <- <-. exists o. split; [constructor|]. apply quiet_move; rewrite ?P; auto.
    + unfold settled. rewrite P. cbn. apply heq_refl.
    + intros u' h Hu' Hh. rewrite Hu in Hu'; injection Hu' as <-. cbn [sofar rest]. rewrite (skipn_S _ _ _ Hn).
      unfold settled in Hh. rewrite P in Hh. rewrite upd_events_cons, <- (heq_running _ _ _ Hh). now rewrite app_assoc.
  - destruct HR as [B M V W L]. destruct s as [l0 l1 cur used m rt nrt]. destruct o as [a lo sr].
    cbn [f_rt f_used f_m f_nrt] in *. subst rt used. unfold loop_rel in L.
    cbn [f_rt cyc_of managing loopbuf f_used sofar rest o_cm o_loop f_cur] in L. destruct L as (b & Eb & L). unfold loopbuf in Eb. cbn in Eb. injection Eb as <-.
    rewrite (skipn_end _ _ Hn), upd_events_nil, app_nil_r in L.
    assert (HN : sw_do (cm_sw m) = true -> exists tmo e', nrt = NSwitch tmo e' /\ cm_sw m = cm_sw a).
    { unfold sw_rel in W; cbn in W. intros Hd. destruct nrt; try (destruct W as (_ & _ & W1 & W2 & _); rewrite <- W1 in W2; congruence); try congruence.
      eexists _, _; split; [reflexivity|]. apply W; reflexivity. }
    destruct M as (M1 & M2 & M3 & M4). cbn [o_cm f_m f_rt managing f_cur] in *. specialize (M4 eq_refl). unfold settled in M4; cbn [f_rt f_used f_m] in M4.
    destruct (sw_do (cm_sw m)) eqn:Hd.
    + injection E as <- <-. destruct (HN eq_refl) as (tmo & e' & -> & Esw). clear HN.
      assert (Eu : u = cur). { destruct B as (_ & ([H|H] & _) & _); [discriminate H|now injection H as ->]. } subst u.
      rewrite Bool.eqb_reflx in L. destruct L as [-> L].
      exists (mkObj a (LCalled c) sr). split; [constructor|]. constructor.
      * destruct B as (B1 & B2 & B3 & B4). split; [exact B1|]. split; [exact B2|]. split; [exact B3|exact I].
      * split; [exact M1|]. split; [exact M2|]. split; [exact M3|]. discriminate.
      * exact V.
      * unfold sw_rel in *; cbn in *. intuition discriminate.
      * unfold loop_rel; cbn. split; [reflexivity|]. split; [reflexivity|]. split; [congruence|]. split; [exact Esw|]. split; [exact M4|]. rewrite L, M1. reflexivity.
    + injection E as <- <-.
      destruct (Bool.eqb u cur) eqn:Eu.
      * apply Bool.eqb_prop in Eu; subst u. destruct L as [-> ->].
        assert (Hda : sw_do (cm_sw a) = false). { unfold sw_rel in W; cbn in W. destruct nrt; try tauto. destruct W as (_ & _ & _ & _ & _ & _ & W). rewrite <- (W eq_refl). exact Hd. }
        destruct (cycle_quiet c a Hda) as (h' & Hh & Es). rewrite M1 in Es.
        change (f_list (mkF l0 l1 cur (Some cur) m (RtUpdate k c (cyc_events c (cm_heap a) (f_list {| f_l0 := l0; f_l1 := l1; f_cur := cur; f_used := Some cur; f_m := m; f_rt := RtIdle; f_nrt := nrt |} cur))) nrt) cur) with (if cur then l1 else l0) in *.
        exists (mkObj (set_heap a h') LNone sr). split; [eapply history_two; [econstructor; exact Es|constructor]|].
        constructor.
        -- destruct B as (B1 & B2 & B3 & B4). unfold bufs, loopbuf, f_set_rt in *; cbn [f_rt f_used f_nrt f_cur f_m f_list f_l0 f_l1 in_update] in *.
           split; [discriminate|]. split; [|split; [|exact I]].
           ++ clear - B2. destruct nrt; try (split; [apply B2|]; split; [now left|apply B2]). split; [apply B2|discriminate].
           ++ intros b x [->|H]; [apply B3; now left|discriminate H].
        -- split; [exact M1|]. split; [exact M2|]. split; [exact M3|]. intros _. unfold settled; cbn. eapply heq_trans; [exact M4|apply heq_sym; exact Hh].
        -- unfold srv_rel in *; cbn [f_nrt o_cm o_srv f_cur f_set_rt] in *. destruct nrt as [| | |[]| | |[]| | | | | | |]; try exact V.
           ++ cbn [set_heap cm_heap]. now rewrite (unload_scan_heq _ _ _ _ Hh).
           ++ destruct V as (n & Z1 & Z2 & Z3). exists n. split; [exact Z1|]. split; [exact Z2|]. cbn [set_heap cm_heap]. now rewrite (unload_scan_heq _ _ _ _ Hh).
           ++ cbn [set_heap cm_heap]. now rewrite (entries_heq _ _ _ Hh).
        -- unfold sw_rel in *; cbn in *. destruct nrt; try exact W.
           destruct W as (Z1 & Z2 & Z3 & Z4 & a0 & b0 & st & asap & now_ & ck & pr & Z5 & Z6). do 4 (split; [assumption|]).
           exists a0, b0, st, asap, now_, ck, pr. split; [exact Z5|].
           destruct (switch_begin_frame a0 b0 st asap timeout now_ ck pr a (set_heap a h')) as (_ & F & _); try reflexivity; [apply heq_sym; exact Hh|].
           rewrite F. cbn. exact Z6.
        -- reflexivity.
      * subst lo. exists (mkObj a LNone sr). split; [apply history_one; constructor|]. constructor.
        -- destruct B as (B1 & B2 & B3 & B4). unfold bufs, loopbuf, f_set_rt in *; cbn [f_rt f_used f_nrt f_cur f_m f_list f_l0 f_l1 in_update] in *.
           split; [discriminate|]. split; [|split; [|exact I]].
           ++ clear - B2. destruct nrt; try (split; [apply B2|]; split; [now left|apply B2]). split; [apply B2|discriminate].
           ++ intros b x [->|H]; [apply B3; now left|discriminate H].
        -- split; [exact M1|]. split; [exact M2|]. split; [exact M3|]. intros _. exact M4.
        -- exact V.
        -- exact W.
        -- reflexivity.
Qed.
