(** Steps of the lock holder. *)
From Verif Require Import HwTypes Lifecycle CMModel CMSpec CMInv CMCycle CMLife FineModel FineSpec FineBase FineRel FineLoop FineManage.

Definition not_wait2 (p : npc) : bool := match p with NWait2 _ _ => false | _ => true end.
Definition keeps_incl (p : npc) : bool := match p with NWait2 _ _ | NClear _ _ | NReady _ _ => false | _ => true end.

Lemma calm_bufs s : bufs s -> not_wait2 (f_nrt s) = true ->
  (f_used s = None \/ f_used s = Some (f_cur s)) /\ (loopbuf s = None \/ loopbuf s = Some (f_cur s)).
Proof. intros (_ & B & _) N. destruct (f_nrt s); try discriminate N; split; apply B. Qed.

Lemma list_other s b l : f_list (f_set_list s (negb b) l) b = f_list s b.
Proof. destruct s, b; reflexivity. Qed.
Lemma list_same s b l : f_list (f_set_list s b l) b = l.
Proof. destruct s, b; reflexivity. Qed.

Lemma not_iterating s : bufs s -> not_wait2 (f_nrt s) = true -> f_iterating s (negb (f_cur s)) = false.
Proof.
  intros B N. destruct (calm_bufs s B N) as [[H|H] _]; unfold f_iterating; rewrite H; destruct (f_rt s); try reflexivity; destruct (f_cur s); reflexivity.
Qed.
Lemma not_walking s : managing (f_rt s) = false -> f_walking s = false.
Proof. unfold f_walking. destruct (f_rt s); cbn; congruence. Qed.

Lemma lock_move s a lo sr m' a' sr' l p :
  R s (mkObj a lo sr) -> managing (f_rt s) = false -> not_wait2 (f_nrt s) = true -> not_wait2 p = true ->
  cm_heap m' = cm_heap (f_m s) -> cm_heap a' = cm_heap a -> cm_list a' = cm_list a ->
  (cm_next (f_m s) <= cm_next m')%nat -> cm_next a' = cm_next m' -> cm_loaders a' = cm_loaders m' ->
  (keeps_incl p = true -> incl l (f_list s (f_cur s))) -> (forall f e, p = NClear f e -> f = negb (f_cur s)) ->
  let s' := f_set_nrt (f_set_list (f_set_m s m') (negb (f_cur s)) l) p in
  srv_rel s' (mkObj a' lo sr') -> sw_rel s' (mkObj a' lo sr') -> R s' (mkObj a' lo sr').
Proof.
  intros [B M V W L] Q N N' Hm Ha Hl Hx Hn Ho Hi Hc s' V' W'.
  destruct (calm_bufs s B N) as [Cu Cb].
  assert (X : loopbuf s' = loopbuf s) by reflexivity.
  assert (Y : f_list s' (f_cur s) = f_list s (f_cur s)) by (unfold s'; destruct s as [l0 l1 [] used m rt nrt]; reflexivity).
  assert (Y' : f_list s' (negb (f_cur s)) = l) by (unfold s'; destruct s as [l0 l1 [] used m rt nrt]; reflexivity).
  assert (Fc : f_cur s' = f_cur s) by reflexivity. assert (Fu : f_used s' = f_used s) by reflexivity. assert (Fr : f_rt s' = f_rt s) by reflexivity.
  assert (Fm : f_m s' = m') by reflexivity. assert (Fn : f_nrt s' = p) by reflexivity.
  clearbody s'.
  constructor; [| |exact V'|exact W'|].
  - destruct B as (B1 & B2 & B3 & B4). unfold bufs. rewrite X, Fc, Fu, Fr, Fm, Fn, Y, Y'. split; [exact B1|]. split; [|split].
    + destruct p; try discriminate N'; split; try exact Cu; (split; [exact Cb|]); try exact I; try (apply Hi; reflexivity). eapply Hc; reflexivity.
    + intros b c Hb Hin. assert (b = f_cur s) by (destruct Hb as [->|Hb]; [reflexivity|]; destruct Cb as [Cb|Cb]; rewrite Cb in Hb; [discriminate Hb|now injection Hb]). subst b.
      rewrite Y in Hin. specialize (B3 _ _ (or_introl eq_refl) Hin). lia.
    + destruct (f_rt s) as [| |k [|] c e| | | | |]; try exact I. intros u Hu. destruct Cu as [Cu|Cu]; rewrite Cu in Hu; [discriminate Hu|]. injection Hu as <-.
      rewrite Y, Hm. now apply B4.
  - destruct M as (M1 & M2 & M3 & M4). unfold mem_rel in *; cbn [o_cm] in *. rewrite Fc, Fr, Fm, Y, Hl, Hn, Ho, Ha. repeat split; try assumption.
    intros _. specialize (M4 Q). unfold settled in *. rewrite Fr, Fu, Fm, Hm. destruct (f_rt s) as [| |k [|] c e| | | | |]; try exact M4.
    destruct Cu as [Cu|Cu]; rewrite Cu in *; [exact M4|]. rewrite Y. exact M4.
  - unfold loop_rel in *; cbn [o_cm o_loop] in *. rewrite X, Fc, Fr. destruct (cyc_of (f_rt s)); [|exact L]. rewrite Q in *.
    destruct L as (b & Eb & L). exists b. split; [exact Eb|]. assert (b = f_cur s) by (destruct Cb as [Cb|Cb]; rewrite Cb in Eb; [discriminate Eb|now injection Eb]). subst b.
    rewrite Y, Ha. exact L.
Qed.

Lemma nrt_as s p : f_set_nrt s p = f_set_nrt (f_set_list (f_set_m s (f_m s)) (negb (f_cur s)) (f_list s (negb (f_cur s)))) p.
Proof. destruct s as [l0 l1 [] used m rt nrt]; reflexivity. Qed.
Lemma list_as s l p : f_set_nrt (f_set_list s (negb (f_cur s)) l) p = f_set_nrt (f_set_list (f_set_m s (f_m s)) (negb (f_cur s)) l) p.
Proof. destruct s as [l0 l1 [] used m rt nrt]; reflexivity. Qed.
Lemma m_as s m p : f_set_nrt (f_set_m s m) p = f_set_nrt (f_set_list (f_set_m s m) (negb (f_cur s)) (f_list s (negb (f_cur s)))) p.
Proof. destruct s as [l0 l1 [] used m0 rt nrt]; reflexivity. Qed.

(** Positions in which nothing about switching is going on. *)
Definition plain (p : npc) : bool := match p with NHand _ _ _ | NSwitch _ _ => false | _ => true end.
Definition plain_sw (rt : rtpc) (m a : cm) : Prop :=
  managing rt = false /\ cm_call a = Idle /\ cm_sw m = cm_sw a /\ sw_do (cm_sw a) = false /\
  cm_start m = [] /\ cm_stop m = [] /\ cm_start a = [] /\ cm_stop a = [] /\ cm_hwstart m = cm_hwstart a /\ cm_hwstop m = cm_hwstop a.
Lemma sw_plain s o : plain (f_nrt s) = true -> sw_rel s o <-> plain_sw (f_rt s) (f_m s) (o_cm o).
Proof. unfold sw_rel, plain_sw. destruct (f_nrt s); try discriminate; intros _; reflexivity. Qed.

Lemma cur_list s m l p : f_list (f_set_nrt (f_set_list (f_set_m s m) (negb (f_cur s)) l) p) (f_cur s) = f_list s (f_cur s).
Proof. destruct s as [l0 l1 [] used m0 rt nrt]; reflexivity. Qed.
Lemma free_list s m l p : f_list (f_set_nrt (f_set_list (f_set_m s m) (negb (f_cur s)) l) p) (negb (f_cur s)) = l.
Proof. destruct s as [l0 l1 [] used m0 rt nrt]; reflexivity. Qed.

(** Moving on without touching the members. *)
Lemma plain_move s a lo sr sr' l p :
  R s (mkObj a lo sr) -> plain (f_nrt s) = true -> plain p = true -> not_wait2 (f_nrt s) = true -> not_wait2 p = true ->
  (keeps_incl p = true -> incl l (f_list s (f_cur s))) -> (forall f e, p = NClear f e -> f = negb (f_cur s)) ->
  let s' := f_set_nrt (f_set_list (f_set_m s (f_m s)) (negb (f_cur s)) l) p in
  srv_rel s' (mkObj a lo sr') -> R s' (mkObj a lo sr').
Proof.
  intros HR P P' N N' Hi Hc s' V'. assert (W := proj1 (sw_plain _ _ P) (r_sw _ _ HR)). assert (M := r_mem _ _ HR). destruct M as (M1 & M2 & M3 & _).
  eapply lock_move; eauto; [apply W|]. apply (sw_plain s'); [exact P'|]. exact W.
Qed.

Lemma free_incl s o : R s o -> keeps_incl (f_nrt s) = true -> incl (f_list s (negb (f_cur s))) (f_list s (f_cur s)).
Proof. intros [(_ & B & _) _ _ _ _] K. destruct (f_nrt s); try discriminate K; apply B. Qed.
Lemma not_destroyed s o : R s o -> keeps_incl (f_nrt s) = true -> f_destroyed s (negb (f_cur s)) = [].
Proof. intros HR K. unfold f_destroyed. rewrite Bool.negb_involutive. apply dropped_incl. eapply free_incl; eauto. Qed.
Lemma write_ok s o l : R s o -> not_wait2 (f_nrt s) = true -> f_write s (negb (f_cur s)) l = (f_set_list s (negb (f_cur s)) l, []).
Proof. intros HR N. unfold f_write. rewrite not_iterating; auto. apply HR. Qed.

Lemma keeps_not_wait2 p : keeps_incl p = true -> not_wait2 p = true. Proof. destruct p; auto. Qed.

(** Returning false. *)
Lemma refuse_ok s a lo sr m' a' e q :
  R s (mkObj a lo sr) -> keeps_incl (f_nrt s) = true -> plain (f_nrt s) = true -> sr = SCalled q ->
  cm_heap m' = cm_heap (f_m s) -> cm_heap a' = cm_heap a -> cm_list a' = cm_list a ->
  (cm_next (f_m s) <= cm_next m')%nat -> cm_next a' = cm_next m' -> cm_loaders a' = cm_loaders m' -> plain_sw (f_rt s) m' a' ->
  step a q = (a', e, ABool false) ->
  exists o', history (mkObj a lo sr) (snd (f_refuse (f_set_m s m') e)) o' /\ R (fst (f_refuse (f_set_m s m') e)) o'.
Proof.
  intros HR K P -> H1 H2 H3 H4 H5 H6 W Es. unfold f_refuse, f_write. cbn [f_set_m f_cur].
  change (f_iterating (f_set_m s m')) with (f_iterating s). rewrite not_iterating; [|apply HR|now apply keeps_not_wait2]. cbn [app fst snd].
  change (f_destroyed (f_set_m s m')) with (f_destroyed s). rewrite (not_destroyed _ _ HR K), app_nil_r.
  exists (mkObj a' lo SNone). split; [eapply history_two; [econstructor; [exact Es|discriminate..]|constructor]|].
  eapply lock_move; eauto; try discriminate; try apply W; try now apply keeps_not_wait2.
  - intros _ x [].
  - reflexivity.
Qed.
Lemma refuse_same s a lo sr e q :
  R s (mkObj a lo sr) -> keeps_incl (f_nrt s) = true -> plain (f_nrt s) = true -> sr = SCalled q ->
  step a q = (a, e, ABool false) ->
  exists o', history (mkObj a lo sr) (snd (f_refuse s e)) o' /\ R (fst (f_refuse s e)) o'.
Proof.
  intros HR K P -> Es. replace (f_refuse s e) with (f_refuse (f_set_m s (f_m s)) e) by now rewrite f_set_m_id. destruct (r_mem _ _ HR) as (M1 & M2 & M3 & _).
  eapply refuse_ok; eauto. now apply (sw_plain s (mkObj a lo (SCalled q))); [|apply HR].
Qed.

(** Examining a controller shows the state the atomic object knows. *)
Definition mid_reset (p : rtpc) : bool := match p with RtReset _ true _ _ => true | _ => false end.
Lemma seen s o : R s o -> managing (f_rt s) = false -> mid_reset (f_rt s) = false -> heq (cm_heap (f_m s)) (cm_heap (o_cm o)).
Proof.
  intros HR Q K. destruct (r_mem _ _ HR) as (_ & _ & _ & M). specialize (M Q). unfold settled in M. destruct (f_rt s) as [| |? []| | | | |]; try discriminate K; exact M.
Qed.
Lemma plain_quiet s o : R s o -> plain (f_nrt s) = true -> managing (f_rt s) = false /\ cm_call (o_cm o) = Idle /\ sw_do (cm_sw (o_cm o)) = false.
Proof. intros HR P. destruct (proj1 (sw_plain _ _ P) (r_sw _ _ HR)) as (A & B & _ & C & _). auto. Qed.

Lemma unload_step a n to : cm_call a = Idle -> unload_scan (cm_heap a) n (cm_list a) = Some (to, true) ->
  step a (Unload n) = (set_list a to, dropped (cm_list a) to, ABool true).
Proof. intros C E. unfold step. rewrite C. unfold unload_controller. now rewrite E. Qed.
Lemma unload_refused a n : cm_call a = Idle -> (unload_scan (cm_heap a) n (cm_list a) = None \/ exists to, unload_scan (cm_heap a) n (cm_list a) = Some (to, false)) ->
  step a (Unload n) = (a, [], ABool false).
Proof. intros C E. unfold step. rewrite C. unfold unload_controller. destruct E as [->|[to ->]]; reflexivity. Qed.

Lemma via o (r : fst_ * list label) s' ls : r = (s', ls) -> (exists o', history o (snd r) o' /\ R (fst r) o') -> exists o', history o ls o' /\ R s' o'.
Proof. intros ->. auto. Qed.

Lemma step_clear_to s o q s' ls : f_nrt s = NClearTo q -> R s o -> f_step s = Some (s', ls) -> exists o', history o ls o' /\ R s' o'.
Proof.
  intros P HR E. unfold f_step in E. rewrite P in E. rewrite (write_ok s o) in E; [|exact HR|now rewrite P]. injection E as <- <-.
  exists o. split; [constructor|]. destruct o as [a lo sr]. rewrite list_as. rewrite (not_destroyed s _ HR) by now rewrite P.
  assert (V := r_srv _ _ HR). unfold srv_rel in V. rewrite P in V. destruct V as [V3 V4].
  apply plain_move with (sr := sr); rewrite ?P; auto; try discriminate.
  - intros _ x [].
  - unfold srv_rel. cbn [f_nrt f_set_nrt f_cur f_set_list f_set_m o_srv o_cm] in *. rewrite cur_list, free_list.
    destruct q; try discriminate V4; auto.
Qed.

Lemma step_copy s o q k r e s' ls : f_nrt s = NCopy q k r e -> mid_reset (f_rt s) = false \/ (forall n, q <> Unload n) -> R s o -> f_step s = Some (s', ls) -> exists o', history o ls o' /\ R s' o'.
Proof.
  intros P Hm HR E. unfold f_step in E. rewrite P in E. destruct o as [a lo sr].
  assert (V := r_srv _ _ HR). unfold srv_rel in V. rewrite P in V. cbn [o_srv o_cm] in V.
  assert (Pl : plain (f_nrt s) = true) by now rewrite P. assert (K : keeps_incl (f_nrt s) = true) by now rewrite P.
  destruct (plain_quiet _ _ HR Pl) as (Q & Ci & _). cbn [o_cm] in Ci. assert (Fi := free_incl _ _ HR K).
  destruct (r_mem _ _ HR) as (M1 & _). cbn [o_cm] in M1.
  destruct (nth_error (f_list s (f_cur s)) k) as [sp|] eqn:Hn; destruct q as [n env|n| | | | | | |]; try discriminate E; try contradiction.
  - destruct V as (-> & -> & V). rewrite (write_ok s _ _ HR) in E by now rewrite P. injection E as <- <-.
    exists (mkObj a lo (SCalled (Load n env))). split; [constructor|]. rewrite list_as.
    apply plain_move with (sr := SCalled (Load n env)); rewrite ?P; auto; try discriminate.
    + intros _. apply incl_app; [exact Fi|]. intros x [<-|[]]. now apply nth_error_In in Hn.
    + unfold srv_rel. cbn [f_nrt f_set_nrt f_cur f_set_list f_set_m o_srv o_cm]. rewrite cur_list, free_list. rewrite V. split; [reflexivity|]. split; [reflexivity|].
      symmetry. now apply firstn_S.
  - destruct V as (-> & -> & V). destruct Hm as [Hm|Hm]; [|destruct (Hm n eq_refl)]. assert (H := seen _ _ HR Q Hm). cbn [o_cm] in H.
    rewrite (heq_running _ _ _ H) in E. assert (V' := unload_scan_snoc (cm_heap a) n (firstn k (f_list s (f_cur s))) sp). rewrite V, <- (firstn_S _ _ _ Hn) in V'.
    destruct (String.eqb (ci_name (sp_info sp)) n).
    + destruct (is_running (cm_heap a) (sp_inst sp)).
      * assert (E' : f_refuse s [] = (s', ls)) by congruence. apply (via _ _ _ _ E'). eapply refuse_same; eauto.
        apply unload_refused; [exact Ci|]. left. rewrite M1, <- (firstn_skipn (S k) (f_list s (f_cur s))). now apply unload_scan_none.
      * injection E as <- <-. exists (mkObj a lo (SCalled (Unload n))). split; [constructor|]. rewrite nrt_as.
        apply plain_move with (sr := SCalled (Unload n)); rewrite ?P; auto; try discriminate.
        unfold srv_rel. cbn [f_nrt f_set_nrt f_cur f_set_list f_set_m o_srv o_cm]. rewrite cur_list, free_list. auto.
    + rewrite (write_ok s _ _ HR) in E by now rewrite P. injection E as <- <-. exists (mkObj a lo (SCalled (Unload n))). split; [constructor|]. rewrite list_as.
      apply plain_move with (sr := SCalled (Unload n)); rewrite ?P; auto; try discriminate.
      * intros _. apply incl_app; [exact Fi|]. intros x [<-|[]]. now apply nth_error_In in Hn.
      * unfold srv_rel. cbn [f_nrt f_set_nrt f_cur f_set_list f_set_m o_srv o_cm]. rewrite cur_list, free_list. auto.
  - destruct V as (-> & -> & V). injection E as <- <-. exists (mkObj a lo (SCalled (Load n env))). split; [constructor|]. rewrite nrt_as.
    apply plain_move with (sr := SCalled (Load n env)); rewrite ?P; auto; try discriminate.
    unfold srv_rel. cbn [f_nrt f_set_nrt f_cur f_set_list f_set_m o_srv o_cm]. rewrite cur_list, free_list, V. now rewrite (firstn_end _ _ Hn).
  - destruct V as (-> & -> & V). rewrite (firstn_end _ _ Hn) in V. destruct r.
    + injection E as <- <-. exists (mkObj a lo (SCalled (Unload n))). split; [constructor|]. rewrite nrt_as.
      apply plain_move with (sr := SCalled (Unload n)); rewrite ?P; auto; try discriminate.
      unfold srv_rel. cbn [f_nrt f_set_nrt f_cur f_set_list f_set_m o_srv o_cm]. rewrite cur_list, free_list. eauto.
    + assert (E' : f_refuse s [] = (s', ls)) by congruence. apply (via _ _ _ _ E'). eapply refuse_same; eauto.
      apply unload_refused; [exact Ci|]. right. rewrite M1. eauto.
Qed.

Lemma load_step a n env : cm_call a = Idle -> step a (Load n env) = (let '(a', e, b) := load_controller n env a in (a', e, ABool b)).
Proof. intros C. unfold step. now rewrite C. Qed.

Lemma step_make s o n env e s' ls : f_nrt s = NMake n env e -> R s o -> f_step s = Some (s', ls) -> exists o', history o ls o' /\ R s' o'.
Proof.
  intros P HR E. unfold f_step in E. rewrite P in E. destruct o as [a lo sr].
  assert (V := r_srv _ _ HR). unfold srv_rel in V. rewrite P in V. cbn [o_srv o_cm] in V. destruct V as (-> & -> & V).
  assert (Pl : plain (f_nrt s) = true) by now rewrite P. assert (K : keeps_incl (f_nrt s) = true) by now rewrite P.
  destruct (plain_quiet _ _ HR Pl) as (Q & Ci & _). cbn [o_cm] in Ci.
  destruct (r_mem _ _ HR) as (M1 & M2 & M3 & _). cbn [o_cm] in M1, M2, M3.
  assert (SL := load_step a n env Ci). unfold load_controller in SL. rewrite M1, M3 in SL. rewrite V in E.
  destruct (existsb _ (f_list s (f_cur s))) eqn:Ex.
  { assert (E' : f_refuse s [] = (s', ls)) by congruence. apply (via _ _ _ _ E'). eapply refuse_same; eauto. }
  destruct (le_nh_ok env) eqn:Nh; cbn [negb] in *.
  2:{ injection E as <- <-. exists (mkObj a lo SNone). split; [eapply history_two; [econstructor; [exact SL|discriminate..]|constructor]|]. rewrite nrt_as.
      apply plain_move with (sr := SCalled (Load n env)); rewrite ?P; auto; try discriminate. intros _. rewrite V. apply incl_refl. reflexivity. }
  destruct (le_type env) as [ty|] eqn:Ty.
  2:{ assert (E' : f_refuse s [] = (s', ls)) by congruence. apply (via _ _ _ _ E'). eapply refuse_same; eauto. }
  destruct (construct ty 0 (cm_loaders (f_m s))) as [[] ec] eqn:Co.
  2:{ assert (E' : f_refuse s ([] ++ ec) = (s', ls)) by congruence. apply (via _ _ _ _ E'). eapply refuse_same; eauto. }
  assert (G : forall x, le_init env = x -> (forall cl, x <> InitOk cl) ->
     exists o', history (mkObj a lo (SCalled (Load n env))) ls o' /\ R s' o').
  { intros x Ex' Nx. rewrite Ex' in E, SL. destruct x as [cl| |]; [destruct (Nx cl eq_refl)|..];
    (match type of E with Some (f_refuse (f_set_m s ?m1) ?e1) = _ => assert (E' : f_refuse (f_set_m s m1) e1 = (s', ls)) by congruence;
       apply (via _ _ _ _ E') end;
     eapply refuse_ok; [exact HR|exact K|exact Pl|reflexivity|..|exact SL]; cbn [cm_heap cm_next cm_list cm_loaders]; try reflexivity; try congruence; try lia;
     exact (proj1 (sw_plain _ _ Pl) (r_sw _ _ HR))). }
  destruct (le_init env) as [claims| |] eqn:In; [|apply (G InitFalse eq_refl); discriminate|apply (G InitThrow eq_refl); discriminate]. clear G.
  injection E as <- <-. exists (mkObj a lo (SCalled (Load n env))). split; [constructor|]. rewrite nrt_as.
  apply plain_move with (sr := SCalled (Load n env)); rewrite ?P; auto; try discriminate.
  - intros _. rewrite V. apply incl_refl.
  - unfold srv_rel. cbn [f_nrt f_set_nrt f_cur f_set_list f_set_m o_srv o_cm]. rewrite cur_list, free_list. split; [exact V|]. exists n, env. split; [reflexivity|].
    split; [now rewrite M1|]. split; [exact Nh|]. exists ty, claims. rewrite M3, M2. auto.
Qed.

Lemma step_append s o sp e s' ls : f_nrt s = NAppend sp e -> R s o -> f_step s = Some (s', ls) -> exists o', history o ls o' /\ R s' o'.
Proof.
  intros P HR E. unfold f_step in E. rewrite P in E. rewrite (write_ok s o) in E; [|exact HR|now rewrite P]. injection E as <- <-.
  exists o. split; [constructor|]. destruct o as [a lo sr]. rewrite list_as.
  assert (V := r_srv _ _ HR). unfold srv_rel in V. rewrite P in V. destruct V as [V1 V2].
  apply plain_move with (sr := sr); rewrite ?P; auto; try discriminate.
  unfold srv_rel. cbn [f_nrt f_set_nrt f_cur f_set_list f_set_m o_srv o_cm] in *. rewrite cur_list, free_list, V1. auto.
Qed.

Lemma step_clear s o f e s' ls : f_nrt s = NClear f e -> R s o -> f_step s = Some (s', ls) -> exists o', history o ls o' /\ R s' o'.
Proof.
  intros P HR E. unfold f_step in E. rewrite P in E. destruct (r_bufs _ _ HR) as (_ & B & _). rewrite P in B. destruct B as (_ & _ & ->).
  rewrite (write_ok s o) in E; [|exact HR|now rewrite P]. injection E as <- <-. destruct o as [a lo sr].
  assert (V := r_srv _ _ HR). unfold srv_rel in V. rewrite P in V. cbn [o_srv] in V. subst sr.
  exists (mkObj a lo SNone). split; [apply history_one; unfold f_destroyed; rewrite Bool.negb_involutive; constructor|]. rewrite list_as.
  apply plain_move with (sr := SDone (ABool true) (e ++ dropped (f_list s (negb (f_cur s))) (f_list s (f_cur s)))); rewrite ?P; auto; try discriminate; try reflexivity.
  intros _ x [].
Qed.

Lemma step_listing s o k acc s' ls : f_nrt s = NListing k acc -> mid_reset (f_rt s) = false -> R s o -> f_step s = Some (s', ls) -> exists o', history o ls o' /\ R s' o'.
Proof.
  intros P Hm HR E. unfold f_step in E. rewrite P in E. destruct o as [a lo sr].
  assert (V := r_srv _ _ HR). unfold srv_rel in V. rewrite P in V. cbn [o_srv o_cm] in V. destruct V as (-> & ->).
  assert (Pl : plain (f_nrt s) = true) by now rewrite P. assert (K : keeps_incl (f_nrt s) = true) by now rewrite P.
  destruct (plain_quiet _ _ HR Pl) as (Q & Ci & _). cbn [o_cm] in Ci. assert (Fi := free_incl _ _ HR K).
  destruct (r_mem _ _ HR) as (M1 & _). cbn [o_cm] in M1. assert (H := seen _ _ HR Q Hm). cbn [o_cm] in H.
  destruct (nth_error (f_list s (f_cur s)) k) as [sp|] eqn:Hn; injection E as <- <-.
  - exists (mkObj a lo (SCalled ListControllers)). split; [constructor|]. rewrite nrt_as.
    apply plain_move with (sr := SCalled ListControllers); rewrite ?P; auto; try discriminate.
    unfold srv_rel. cbn [f_nrt f_set_nrt f_cur f_set_list f_set_m o_srv o_cm]. rewrite cur_list. split; [reflexivity|].
    rewrite (firstn_S _ _ _ Hn), map_app. f_equal. cbn [map]. now rewrite <- (entry_heq _ _ sp H).
  - exists (mkObj a lo SNone). split.
    + eapply history_two; [|constructor]. econstructor; try discriminate. unfold step. rewrite Ci. unfold list_controllers. rewrite M1, (firstn_end _ _ Hn). reflexivity.
    + rewrite nrt_as. apply plain_move with (sr := SCalled ListControllers); rewrite ?P; auto; try discriminate. reflexivity.
Qed.

Lemma step_types s o s' ls : f_nrt s = NTypes -> R s o -> f_step s = Some (s', ls) -> exists o', history o ls o' /\ R s' o'.
Proof.
  intros P HR E. unfold f_step in E. rewrite P in E. destruct o as [a lo sr].
  assert (V := r_srv _ _ HR). unfold srv_rel in V. rewrite P in V. cbn [o_srv o_cm] in V. subst sr.
  assert (Pl : plain (f_nrt s) = true) by now rewrite P. assert (K : keeps_incl (f_nrt s) = true) by now rewrite P.
  destruct (plain_quiet _ _ HR Pl) as (Q & Ci & _). cbn [o_cm] in Ci. assert (Fi := free_incl _ _ HR K).
  destruct (r_mem _ _ HR) as (_ & _ & M3 & _). cbn [o_cm] in M3. injection E as <- <-.
  exists (mkObj a lo SNone). split.
  - eapply history_two; [|constructor]. econstructor; try discriminate. unfold step. rewrite Ci. unfold list_types. rewrite M3. reflexivity.
  - rewrite nrt_as. apply plain_move with (sr := SCalled ListTypes); rewrite ?P; auto; try discriminate. reflexivity.
Qed.
