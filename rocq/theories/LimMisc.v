(** Further facts about the limit handles: reset, NaN commands, repeated enforcement, the
    limit interfaces and the two sources of limits. *)
From Verif Require Import LimSpec LimProofs LimRest SMapProofs.

Section Proofs.
Context {A : arith} {fin tame : num A -> Prop} (L : laws A fin tame).
Notation F := (num A).

(** ** Reset and NaN *)

Lemma ps_after_const (h : pos_sat A) ops : let h' := pos_sat_after h ops in
  ps_limits h' = ps_limits h /\ ps_min h' = ps_min h /\ ps_max h' = ps_max h.
Proof.
  cbv zeta. revert h. induction ops as [|o ops IH]; intros h; [auto|].
  unfold pos_sat_after. simpl. fold (pos_sat_after (match o with
                        | Enforce j dt => fst (pos_sat_enforce h j dt)
                        | Reset => pos_sat_reset h end) ops).
  destruct (IH (match o with Enforce j dt => fst (pos_sat_enforce h j dt)
                        | Reset => pos_sat_reset h end)) as (E1 & E2 & E3).
  rewrite E1, E2, E3. destruct o as [j dt|]; [|auto].
  rewrite (ps_enforce_eq h j dt _ eq_refl). auto.
Qed.

Lemma ps_after_app (h : pos_sat A) ops ops' : pos_sat_after h (ops ++ ops') = pos_sat_after (pos_sat_after h ops) ops'.
Proof. apply fold_left_app. Qed.

Lemma ps_make_prev (l : limits A) : isnan A (ps_prev (pos_sat_make l)) = true /\ ps_limits (pos_sat_make l) = l.
Proof. unfold pos_sat_make. destruct (has_position_limits l); simpl; split; auto; apply (nan_nan _ _ _ L). Qed.

Lemma ps_reset_make (l : limits A) ops : pos_sat_after (pos_sat_make l) (ops ++ [Reset]) = pos_sat_make l.
Proof.
  rewrite ps_after_app. simpl. unfold pos_sat_reset.
  destruct (ps_after_const (pos_sat_make l) ops) as (-> & -> & ->).
  unfold pos_sat_make. destruct (has_position_limits l); reflexivity.
Qed.

Lemma pos_sat_reset_forgets (l : limits A) ops ops' j dt :
  pos_sat_written l (ops ++ Reset :: ops') j dt = pos_sat_written l ops' j dt.
Proof.
  unfold pos_sat_written. change (Reset :: ops') with ([Reset] ++ ops').
  rewrite app_assoc, ps_after_app, ps_reset_make. reflexivity.
Qed.

(** Two handles that only differ in how NaN is written behave alike. *)
Lemma ps_nan_eq (h h' : pos_sat A) j dt : ps_limits h = ps_limits h' -> ps_min h = ps_min h' -> ps_max h = ps_max h' ->
  isnan A (ps_prev h) = true -> isnan A (ps_prev h') = true ->
  pos_sat_enforce h j dt = pos_sat_enforce h' j dt.
Proof.
  intros E1 E2 E3 N1 N2. rewrite (ps_enforce_eq h j dt _ eq_refl), (ps_enforce_eq h' j dt _ eq_refl).
  now rewrite N1, N2, E1, E2, E3.
Qed.

Lemma pos_sat_nan_forgets (l : limits A) ops jn dtn ops' j dt : isnan A (j_cmd jn) = true ->
  pos_sat_written l (ops ++ Enforce jn dtn :: ops') j dt = pos_sat_written l ops' j dt.
Proof.
  intros N. unfold pos_sat_written. change (Enforce jn dtn :: ops') with ([Enforce jn dtn] ++ ops').
  rewrite app_assoc, ps_after_app.
  set (h := pos_sat_after (pos_sat_make l) (ops ++ [Enforce jn dtn])).
  assert (P : isnan A (ps_prev h) = true).
  { unfold h. rewrite ps_after_app. simpl. rewrite (ps_enforce_eq _ jn dtn _ eq_refl). simpl.
    rewrite (sat_nan L) by auto. auto. }
  destruct (ps_after_const (pos_sat_make l) (ops ++ [Enforce jn dtn])) as (E1 & E2 & E3).
  fold h in E1, E2, E3. destruct (ps_make_prev l) as [P' _].
  clearbody h. destruct ops' as [|[j' dt'|] ops'].
  - simpl. f_equal. f_equal. apply ps_nan_eq; auto.
  - simpl. f_equal. unfold pos_sat_after. simpl.
    now rewrite (ps_nan_eq h (pos_sat_make l)) by auto.
  - simpl. unfold pos_sat_after. simpl. unfold pos_sat_reset. now rewrite E1, E2, E3.
Qed.

Lemma pf_after_app (h : pos_soft A) ops ops' : pos_soft_after h (ops ++ ops') =
  match pos_soft_after h ops with Some h' => pos_soft_after h' ops' | None => None end.
Proof.
  unfold pos_soft_after. rewrite fold_left_app.
  set (X := fold_left _ ops (Some h)). destruct X as [h'|]; auto.
  clear. induction ops' as [|o r IH]; auto.
Qed.

Lemma pf_after_const ops : forall (h h' : pos_soft A), pos_soft_after h ops = Some h' ->
  pf_limits h' = pf_limits h /\ pf_soft h' = pf_soft h.
Proof.
  induction ops as [|o ops IH] using rev_ind; intros h h' H.
  - injection H as <-. auto.
  - rewrite pf_after_app in H. destruct (pos_soft_after h ops) as [h1|] eqn:E; [|discriminate].
    destruct (IH _ _ E) as [E1 E2]. destruct o as [j dt|]; simpl in H.
    + unfold pos_soft_after in H. simpl in H. unfold pos_soft_enforce in H.
      destruct (negb (ltb A (zero A) dt)); [discriminate|].
      destruct (has_position_limits (pf_limits h1)); injection H as <-; auto.
    + injection H as <-. auto.
Qed.

(** For the soft limiter: once the history has run, it is forgotten. *)
Lemma pos_soft_reset_forgets (l : limits A) s ops ops' j dt :
  (forall h, pos_soft_make l s = Some h -> pos_soft_after h ops <> None) ->
  pos_soft_written l s (ops ++ Reset :: ops') j dt = pos_soft_written l s ops' j dt.
Proof.
  unfold pos_soft_written, pos_soft_make. destruct (has_velocity_limits l); [|reflexivity].
  intros H. specialize (H _ eq_refl). rewrite pf_after_app.
  destruct (pos_soft_after _ ops) as [h|] eqn:E; [|congruence].
  destruct (pf_after_const _ _ _ E) as [E1 E2].
  change (Reset :: ops') with ([Reset] ++ ops'). rewrite pf_after_app.
  unfold pos_soft_after at 1. simpl. unfold pos_soft_reset. rewrite E1, E2. reflexivity.
Qed.

Lemma pf_nan_eq (h h' : pos_soft A) j dt : pf_limits h = pf_limits h' -> pf_soft h = pf_soft h' ->
  isnan A (pf_prev h) = true -> isnan A (pf_prev h') = true ->
  pos_soft_enforce h j dt = pos_soft_enforce h' j dt.
Proof.
  intros E1 E2 N1 N2. unfold pos_soft_enforce. now rewrite N1, N2, E1, E2.
Qed.

Lemma pos_soft_nan_forgets (l : limits A) s ops jn dtn ops' j dt : isnan A (j_cmd jn) = true ->
  (forall h, pos_soft_make l s = Some h -> pos_soft_after h (ops ++ [Enforce jn dtn]) <> None) ->
  pos_soft_written l s (ops ++ Enforce jn dtn :: ops') j dt = pos_soft_written l s ops' j dt.
Proof.
  intros N. unfold pos_soft_written, pos_soft_make. destruct (has_velocity_limits l); [|reflexivity].
  intros H. specialize (H _ eq_refl). change (Enforce jn dtn :: ops') with ([Enforce jn dtn] ++ ops').
  rewrite app_assoc, pf_after_app.
  destruct (pos_soft_after _ (ops ++ [Enforce jn dtn])) as [h|] eqn:E; [|congruence].
  destruct (pf_after_const _ _ _ E) as [E1 E2]. simpl in E1, E2.
  assert (P : isnan A (pf_prev h) = true).
  { rewrite pf_after_app in E. destruct (pos_soft_after _ ops) as [h1|]; [|discriminate].
    unfold pos_soft_after in E. simpl in E. unfold pos_soft_enforce in E.
    destruct (negb (ltb A (zero A) dtn)); [discriminate|].
    destruct (has_position_limits (pf_limits h1)); injection E as <-; simpl; rewrite (sat_nan L); auto. }
  assert (P0 : isnan A (pf_prev (mkPosSoft l s (nan A))) = true) by apply (nan_nan _ _ _ L).
  destruct ops' as [|[j' dt'|] ops'].
  - unfold pos_soft_after. simpl. rewrite (pf_nan_eq h (mkPosSoft l s (nan A))); auto.
  - unfold pos_soft_after. simpl. rewrite (pf_nan_eq h (mkPosSoft l s (nan A))); auto.
  - unfold pos_soft_after. simpl. unfold pos_soft_reset. rewrite E1, E2. reflexivity.
Qed.

(** A NaN command is passed on by every limiter. *)
Lemma nan_passes (j : joint A) dt : isnan A (j_cmd j) = true ->
  (forall h, j_cmd (snd (pos_sat_enforce h j dt)) = j_cmd j) /\
  (forall h r, pos_soft_enforce h j dt = Some r -> j_cmd (snd r) = j_cmd j) /\
  (forall l, j_cmd (eff_sat_enforce l j dt) = j_cmd j) /\
  (forall h, j_cmd (eff_soft_enforce h j dt) = j_cmd j) /\
  (forall h r, vel_sat_enforce h j dt = Some r -> j_cmd (snd r) = j_cmd j) /\
  (forall h, j_cmd (vel_soft_enforce h j dt) = j_cmd j).
Proof.
  intros N. split; [|split; [|split; [|split; [|split]]]].
  - intros h. rewrite (ps_enforce_eq h j dt _ eq_refl). simpl. apply (sat_nan L); auto.
  - intros h r H. unfold pos_soft_enforce in H. destruct (negb (ltb A (zero A) dt)); [discriminate|].
    destruct (has_position_limits (pf_limits h)); injection H as <-; simpl; apply (sat_nan L); auto.
  - intros l. unfold eff_sat_enforce.
    destruct (if has_position_limits l then _ else _) as [a b].
    destruct (if ltb A (j_vel j) _ then _ else _) as [c d]. simpl. apply (sat_nan L); auto.
  - intros h. rewrite ef_enforce_eq. simpl. apply (sat_nan L); auto.
  - intros h r H. unfold vel_sat_enforce in H.
    destruct (has_acceleration_limits (vs_limits h)).
    + destruct (negb (ltb A (zero A) dt)); [discriminate|].
      injection H as <-. simpl. apply (sat_nan L); auto.
    + injection H as <-. simpl. apply (sat_nan L); auto.
  - intros h. rewrite vf_enforce_eq. simpl. apply (sat_nan L); auto.
Qed.

(** After a NaN the velocity limiter with acceleration limits limits nothing once. *)
Lemma vel_sat_nan_open (l : limits A) h j dt : has_acceleration_limits l = true -> vs_limits h = l ->
  isnan A (vs_prev h) = true -> lt (zero A) dt ->
  exists h' j', vel_sat_enforce h j dt = Some (h', j') /\ j_cmd j' = j_cmd j.
Proof.
  intros Ea El N P. unfold vel_sat_enforce. rewrite El, Ea. unfold lt in P. rewrite P. simpl.
  eexists. eexists. split; [reflexivity|]. simpl.
  assert (N1 : isnan A (sub A (vs_prev h) (mul A (max_acceleration l) dt)) = true)
    by (apply (sub_nan _ _ _ L); auto).
  assert (N2 : isnan A (add A (vs_prev h) (mul A (max_acceleration l) dt)) = true)
    by (apply (add_nan _ _ _ L); auto).
  unfold saturate, fmax, fmin.
  rewrite (ltb_nan_l L (sub A _ _)) by auto. rewrite (ltb_nan_r L _ (add A _ _)) by auto.
  rewrite (ltb_nan_r L _ (sub A _ _)) by auto. now rewrite (ltb_nan_l L (add A _ _)) by auto.
Qed.

(** ** Enforcing twice *)

Lemma starts_inside_snoc P Z fresh ops j dt :
  starts_inside P Z fresh ops -> P dt -> (fresh_after fresh ops = true -> Z (j_pos j)) ->
  starts_inside P Z fresh (ops ++ [@Enforce A j dt]).
Proof.
  revert fresh. induction ops as [|o ops IH]; intros fresh H1 H2 H3.
  - simpl. auto.
  - rewrite fresh_after_cons in H3. simpl in *. destruct o as [j' dt'|].
    + destruct H1 as (H1 & H4 & H5). split; auto.
    + auto.
Qed.

Lemma pos_sat_twice l ops j dt : pos_limits_ok fin l ->
  starts_inside (period_ok fin) (within (min_position l) (max_position l)) true
    (ops ++ [Enforce j dt]) -> numeric (j_cmd j) ->
  let w := pos_sat_written l ops j dt in
  forall p v, pos_sat_written l (ops ++ [Enforce j dt]) (mkJoint p v w) dt = w.
Proof.
  intros Hl Hs N w p v.
  destruct (pos_sat_spec L l ops j dt Hl Hs) as (_ & S & _). destruct (S N) as [[W1 W2] _].
  fold w in W1, W2.
  assert (Hdt : period_ok fin dt).
  { apply (starts_inside_app _ _ _ _ (Enforce j dt)) in Hs. apply Hs. }
  assert (FA : fresh_after true (ops ++ [Enforce j dt]) = false).
  { unfold fresh_after. rewrite rev_app_distr. exact N. }
  apply (pos_sat_transparent L l (ops ++ [Enforce j dt]) (mkJoint p v w) dt Hl).
  - apply starts_inside_snoc; auto. rewrite FA. discriminate.
  - split; auto.
  - intros V. simpl. unfold pos_sat_reference. rewrite rev_app_distr. simpl.
    unfold numeric in N. rewrite N, rev_involutive. fold w.
    assert (Fw : fin w).
    { apply (fin_between _ _ _ L (min_position l) (max_position l)); try apply Hl. split; auto. }
    assert (D : le (zero A) (mul A (max_velocity l) dt)).
    { destruct Hl as (_ & _ & _ & _ & Hv). destruct (Hv V). apply (mul_nonneg L); auto; apply Hdt. }
    split; [apply (sub_down L); auto | apply (add_up L); auto].
Qed.

Lemma vel_sat_twice l ops j dt w : vel_limits_ok fin l ->
  Forall (vel_call_ok fin) (ops ++ [(j, dt)]) ->
  vel_sat_written l ops j dt = Some w ->
  forall p v, vel_sat_written l (ops ++ [(j, dt)]) (mkJoint p v w) dt = Some w.
Proof.
  intros Hl Ho Hw p v.
  destruct (vel_sat_spec L l ops j dt Hl Ho) as (w' & ref & E & Er & B1 & B2 & _ & _).
  rewrite Hw in E. injection E as <-.
  assert (Ho2 : Forall (vel_call_ok fin) ((ops ++ [(j, dt)]) ++ [(mkJoint p v w, dt)])).
  { apply Forall_app. split; auto. constructor; [|constructor].
    apply Forall_app in Ho as [_ Ho]. inversion Ho as [|? ? Hc _]; subst.
    destruct Hc as (_ & F1 & F2). split; [|split; auto]. simpl. destruct B2 as [B2 _].
    eapply le_numr; eauto. }
  destruct (vel_sat_spec L l _ _ dt Hl Ho2) as (w2 & ref2 & E2 & Er2 & B3 & B4 & _ & T).
  rewrite E2. f_equal. simpl in T. apply T; auto.
  assert (R : ref2 = w).
  { unfold vel_sat_reference in Er2. rewrite rev_app_distr in Er2. simpl in Er2.
    rewrite rev_involutive, Hw in Er2. now injection Er2. }
  intros Ea. rewrite R. rewrite R in B3.
  destruct Hl as (_ & (Fv & Pv) & Ha). destruct (Ha Ea) as [Fa Pa].
  assert (Fw : fin w) by (apply (bounded_fin L (max_velocity l)); auto).
  assert (D : le (zero A) (mul A (max_acceleration l) dt)).
  { apply Forall_app in Ho as [_ Ho]. inversion Ho as [|? ? Hc _]; subst.
    destruct Hc as (_ & F1 & F2). apply (mul_nonneg L); auto. apply (lt_le L); auto. }
  split; [apply (sub_down L); auto | apply (add_up L); auto].
Qed.

Lemma eff_sat_twice (l : limits A) j dt dt' :
  eff_sat_enforce l (eff_sat_enforce l j dt) dt' = eff_sat_enforce l j dt.
Proof.
  assert (P : j_pos (eff_sat_enforce l j dt) = j_pos j /\ j_vel (eff_sat_enforce l j dt) = j_vel j).
  { unfold eff_sat_enforce. destruct (if has_position_limits l then _ else _) as [a b].
    destruct (if ltb A (j_vel j) _ then _ else _) as [c d]. auto. }
  destruct P as [P1 P2]. unfold eff_sat_enforce at 1. rewrite P1, P2. unfold eff_sat_enforce.
  destruct (if has_position_limits l then _ else _) as [a b].
  destruct (if ltb A (j_vel j) _ then _ else _) as [c d].
  unfold set_command. simpl. now rewrite (sat_idem L).
Qed.

Lemma eff_soft_twice (h : eff_soft A) j dt dt' :
  eff_soft_enforce h (eff_soft_enforce h j dt) dt' = eff_soft_enforce h j dt.
Proof. rewrite !ef_enforce_eq. unfold set_command. simpl. now rewrite (sat_idem L). Qed.

Lemma vel_soft_twice (h : vel_soft A) j dt :
  vel_soft_enforce h (vel_soft_enforce h j dt) dt = vel_soft_enforce h j dt.
Proof. rewrite !vf_enforce_eq. unfold set_command. simpl. now rewrite (sat_idem L). Qed.

End Proofs.

(** ** The limit interfaces *)
Section Interface.
Context {A : arith} {H : Type}.
Context (enf : H -> joint A -> num A -> option (H * joint A)) (rst : H -> H).

Lemma lim_enforce_other m : forall js dt m' js' n, lim_enforce enf m js dt = Some (m', js') ->
  (forall nm h, In (nm, h) m -> lh_joint h <> n) -> js' n = js n.
Proof.
  induction m as [|[nm h] m IH]; intros js dt m' js' n E D; simpl in E.
  - injection E as <- <-. reflexivity.
  - destruct (enf (lh_state h) (js (lh_joint h)) dt) as [[s j]|]; [|discriminate].
    destruct (lim_enforce enf m _ dt) as [[m1 js1]|] eqn:E1; [|discriminate].
    injection E as <- <-. rewrite (IH _ _ _ _ n E1).
    + unfold set_joint. assert (lh_joint h <> n) by (apply (D nm); simpl; auto).
      destruct (Nat.eqb_spec n (lh_joint h)); auto. congruence.
    + intros nm' h' I. apply (D nm'). simpl; auto.
Qed.

(** Every handle acts once, on the joint data as they were before the call. *)
Lemma lim_enforce_spec m : forall js dt m' js', lim_enforce enf m js dt = Some (m', js') ->
  NoDup (map (fun p => lh_joint (snd p)) m) ->
  skeys m' = skeys m /\
  (forall nm h, In (nm, h) m -> exists s j, enf (lh_state h) (js (lh_joint h)) dt = Some (s, j) /\
     In (nm, mkLim s (lh_joint h)) m' /\ js' (lh_joint h) = j) /\
  (forall n, (forall nm h, In (nm, h) m -> lh_joint h <> n) -> js' n = js n).
Proof.
  intros js dt m' js' E ND. split; [|split].
  - clear ND. revert js m' js' E. induction m as [|[nm h] m IH]; intros js m' js' E; simpl in E.
    + injection E as <- <-. reflexivity.
    + destruct (enf (lh_state h) (js (lh_joint h)) dt) as [[s j]|]; [|discriminate].
      destruct (lim_enforce enf m _ dt) as [[m1 js1]|] eqn:E1; [|discriminate].
      injection E as <- <-. simpl. f_equal. eapply IH; eauto.
  - revert js m' js' E. induction m as [|[nm h] m IH]; intros js m' js' E nm0 h0 I; [destruct I|].
    simpl in E, ND. inversion ND as [|? ? N1 N2]; subst.
    destruct (enf (lh_state h) (js (lh_joint h)) dt) as [[s j]|] eqn:Ee; [|discriminate].
    destruct (lim_enforce enf m _ dt) as [[m1 js1]|] eqn:E1; [|discriminate].
    injection E as <- <-.
    assert (Dj : forall nm' h', In (nm', h') m -> lh_joint h' <> lh_joint h).
    { intros nm' h' I' C. apply N1. rewrite <- C.
      apply (in_map (fun p => lh_joint (snd p)) _ _ I'). }
    destruct I as [I|I].
    + injection I as <- <-. exists s, j. split; auto. split; [simpl; auto|].
      rewrite (lim_enforce_other _ _ _ _ _ _ E1 Dj). unfold set_joint. now rewrite Nat.eqb_refl.
    + destruct (IH N2 _ _ _ E1 _ _ I) as (s0 & j0 & P1 & P2 & P3). exists s0, j0.
      unfold set_joint in P1. destruct (Nat.eqb_spec (lh_joint h0) (lh_joint h)) as [C|_].
      { exfalso. apply (Dj _ _ I); auto. }
      split; auto. split; [simpl; auto|auto].
  - intros n D. eapply lim_enforce_other; eauto.
Qed.

(** enforceLimits of the interface succeeds exactly if that of every handle does. *)
Lemma lim_enforce_some m : forall js dt,
  NoDup (map (fun p => lh_joint (snd p)) m) ->
  (lim_enforce enf m js dt <> None <->
   forall nm h, In (nm, h) m -> enf (lh_state h) (js (lh_joint h)) dt <> None).
Proof.
  induction m as [|[nm h] m IH]; intros js dt ND; simpl.
  - split; [intros _ nm h []|discriminate].
  - inversion ND as [|? ? N1 N2]; subst.
    assert (Dj : forall nm' h', In (nm', h') m -> lh_joint h' <> lh_joint h).
    { intros nm' h' I' C. apply N1. simpl. rewrite <- C.
      apply (in_map (fun p => lh_joint (snd p)) _ _ I'). }
    destruct (enf (lh_state h) (js (lh_joint h)) dt) as [[s j]|] eqn:Ee.
    + specialize (IH (set_joint js (lh_joint h) j) dt N2).
      assert (IH' : lim_enforce enf m (set_joint js (lh_joint h) j) dt <> None <->
        forall nm h, In (nm, h) m -> enf (lh_state h) (js (lh_joint h)) dt <> None).
      { rewrite IH. split; intros Q nm' h' I'; specialize (Q nm' h' I');
          unfold set_joint in *; destruct (Nat.eqb_spec (lh_joint h') (lh_joint h)) as [C|_]; auto;
          exfalso; apply (Dj _ _ I'); auto. }
      destruct (lim_enforce enf m _ dt) as [[m1 js1]|].
      * split; [|discriminate]. intros _ nm' h' [I'|I'].
        -- injection I' as <- <-. congruence.
        -- apply (proj1 IH') with (nm := nm'); [discriminate|auto].
      * split; [congruence|]. intros Q. exfalso. apply (proj2 IH'); [|reflexivity].
        intros nm' h' I'. apply (Q nm'). auto.
    + split; [congruence|]. intros Q. exfalso. apply (Q nm h); auto.
Qed.

Lemma lim_reset_spec m : skeys (lim_reset rst m) = skeys m /\
  forall nm h, In (nm, h) (lim_reset rst m) <->
    exists h0, In (nm, h0) m /\ h = mkLim (rst (lh_state h0)) (lh_joint h0).
Proof.
  split.
  - unfold skeys, lim_reset. rewrite map_map. apply map_ext. intros []. reflexivity.
  - intros nm h. unfold lim_reset. rewrite in_map_iff. split.
    + intros ([n h0] & E & I). simpl in E. injection E as <- <-. eauto.
    + intros (h0 & I & ->). exists (nm, h0). auto.
Qed.
End Interface.

(** ** Sources of limits *)
Section Sources.
Context {A : arith}.
Notation F := (num A).

Lemma read_one_spec p flag value (set : bool -> F -> limits A) old l (geth : limits A -> bool)
  (getv : limits A -> F) :
  (forall h v, geth (set h v) = h /\ getv (set h v) = v) -> old = getv l ->
  updated p flag value (geth l) (getv l)
    (geth (read_one p flag value set old l)) (getv (read_one p flag value set old l)).
Proof.
  intros Hs ->. unfold updated, specified, switched_off, read_one, get_bool, get_num.
  destruct (p flag) as [[[]|x|]|] eqn:E1; try destruct (p value) as [[b|y|]|] eqn:E2;
    repeat split; intros; repeat match goal with
      | H : _ /\ _ |- _ => destruct H
      end; try congruence; try apply Hs;
    try (exfalso; match goal with H : forall x, ~ _ |- _ => eapply H; split; eauto end).
  all: try (match goal with H : Some (PNum _) = Some (PNum _) |- _ => injection H as -> end; apply Hs).
  all: try (exfalso; match goal with H : ~ _ |- _ => now apply H end).
Qed.

Lemma rosparam_absent (l : limits A) : rosparam_limits None l = (false, l).
Proof. reflexivity. Qed.

Lemma read_pos_spec (p : params A) l :
  let l' := read_pos p l in
  ((forall lo hi, p "has_position_limits"%string = Some (PBool true) ->
      p "min_position"%string = Some (PNum lo) -> p "max_position"%string = Some (PNum hi) ->
      has_position_limits l' = true /\ min_position l' = lo /\ max_position l' = hi) /\
   (switched_off p "has_position_limits" -> has_position_limits l' = false /\
      min_position l' = min_position l /\ max_position l' = max_position l) /\
   (~ switched_off p "has_position_limits" ->
    (forall lo hi, ~ (p "has_position_limits"%string = Some (PBool true) /\
      p "min_position"%string = Some (PNum lo) /\ p "max_position"%string = Some (PNum hi))) ->
      has_position_limits l' = has_position_limits l /\
      min_position l' = min_position l /\ max_position l' = max_position l)) /\
  ((forall w, switched_off p "has_position_limits" -> p "angle_wraparound"%string = Some (PBool w) ->
      angle_wraparound l' = w) /\
   ((forall w, ~ (switched_off p "has_position_limits" /\ p "angle_wraparound"%string = Some (PBool w))) ->
      angle_wraparound l' = angle_wraparound l)).
Proof.
  unfold switched_off, read_pos, get_bool, get_num. cbv zeta.
  destruct (p "has_position_limits"%string) as [[[]|x|]|] eqn:E1.
  1: destruct (p "min_position"%string) as [[b|y|]|] eqn:E2;
     destruct (p "max_position"%string) as [[b'|y'|]|] eqn:E3.
  all: try (destruct (p "angle_wraparound"%string) as [[w|z|]|] eqn:E4).
  all: split; [split; [|split]|split]; intros; repeat match goal with
      | H : _ /\ _ |- _ => destruct H
      | H : Some _ = Some _ |- _ => injection H; clear H; intros; subst
      end; try congruence; auto.
  all: try (exfalso; match goal with H : forall lo hi, ~ _ |- _ => eapply H; eauto end).
  all: try (exfalso; match goal with H : ~ _ |- _ => now apply H end).
  all: try (exfalso; match goal with H : forall w, ~ _ |- _ => eapply H; eauto end).
Qed.

(** Parts of the limits that one block does not touch. *)
Lemma read_one_frame {B} p flag value (set : bool -> F -> limits A) old l (g : limits A -> B) :
  (forall h v, g (set h v) = g l) -> g (read_one p flag value set old l) = g l.
Proof.
  intros Hs. unfold read_one. destruct (get_bool p flag) as [[]|]; auto.
  destruct (get_num p value); auto.
Qed.

Lemma read_pos_frame {B} p l (g : limits A -> B) :
  (forall l h lo hi, g (with_pos l h lo hi) = g l) -> (forall l w, g (with_wrap l w) = g l) ->
  g (read_pos p l) = g l.
Proof.
  intros H1 H2. unfold read_pos. destruct (get_bool p "has_position_limits") as [[]|]; auto.
  - destruct (get_num p "min_position"), (get_num p "max_position"); auto.
  - destruct (get_bool p "angle_wraparound"); rewrite ?H2, H1; auto.
Qed.

(** The whole function. *)
Lemma rosparam_spec (p : params A) l : exists l',
  rosparam_limits (Some p) l = (true, l') /\ pos_updated p l l' /\ wrap_updated p l l' /\
  updated p "has_velocity_limits" "max_velocity" (has_velocity_limits l) (max_velocity l)
    (has_velocity_limits l') (max_velocity l') /\
  updated p "has_acceleration_limits" "max_acceleration" (has_acceleration_limits l)
    (max_acceleration l) (has_acceleration_limits l') (max_acceleration l') /\
  updated p "has_jerk_limits" "max_jerk" (has_jerk_limits l) (max_jerk l)
    (has_jerk_limits l') (max_jerk l') /\
  updated p "has_effort_limits" "max_effort" (has_effort_limits l) (max_effort l)
    (has_effort_limits l') (max_effort l').
Proof.
  unfold rosparam_limits.
  set (l1 := read_pos p l).
  set (l2 := read_one p _ _ (with_vel l1) _ l1).
  set (l3 := read_one p _ _ (with_acc l2) _ l2).
  set (l4 := read_one p _ _ (with_jerk l3) _ l3).
  set (l5 := read_one p _ _ (with_eff l4) _ l4).
  exists l5. split; [reflexivity|].
  assert (F1 : forall B (g : limits A -> B), (forall l h lo hi, g (with_pos l h lo hi) = g l) ->
    (forall l w, g (with_wrap l w) = g l) -> g l1 = g l)
    by (intros B g G1 G2; unfold l1; apply read_pos_frame; auto).
  assert (F2 : forall B (g : limits A -> B), (forall l h v, g (with_vel l h v) = g l) -> g l2 = g l1)
    by (intros B g G; unfold l2; apply read_one_frame; auto).
  assert (F3 : forall B (g : limits A -> B), (forall l h v, g (with_acc l h v) = g l) -> g l3 = g l2)
    by (intros B g G; unfold l3; apply read_one_frame; auto).
  assert (F4 : forall B (g : limits A -> B), (forall l h v, g (with_jerk l h v) = g l) -> g l4 = g l3)
    by (intros B g G; unfold l4; apply read_one_frame; auto).
  assert (F5 : forall B (g : limits A -> B), (forall l h v, g (with_eff l h v) = g l) -> g l5 = g l4)
    by (intros B g G; unfold l5; apply read_one_frame; auto).
  destruct (read_pos_spec p l) as [(R1 & R2 & R3) (R4 & R5)]. cbv zeta in *. fold l1 in R1, R2, R3, R4, R5.
  assert (P : has_position_limits l5 = has_position_limits l1 /\ min_position l5 = min_position l1 /\
    max_position l5 = max_position l1 /\ angle_wraparound l5 = angle_wraparound l1).
  { repeat split; rewrite F5, F4, F3, F2 by reflexivity; reflexivity. }
  destruct P as (P1 & P2 & P3 & P4).
  split.
  { unfold pos_updated, pos_specified. rewrite P1, P2, P3. split; [|split; [exact R2|]].
    - intros lo hi (G1 & G2 & G3). auto.
    - intros. apply R3; auto. }
  split.
  { unfold wrap_updated. rewrite P4. split; auto. }
  split.
  { rewrite (F5 _ has_velocity_limits), (F5 _ max_velocity), (F4 _ has_velocity_limits),
      (F4 _ max_velocity), (F3 _ has_velocity_limits), (F3 _ max_velocity),
      <- (F1 _ has_velocity_limits), <- (F1 _ max_velocity) by reflexivity.
    unfold l2. apply (read_one_spec p _ _ (with_vel l1) _ l1 has_velocity_limits max_velocity); auto. }
  split.
  { rewrite (F5 _ has_acceleration_limits), (F5 _ max_acceleration), (F4 _ has_acceleration_limits),
      (F4 _ max_acceleration), <- (F1 _ has_acceleration_limits), <- (F1 _ max_acceleration),
      <- (F2 _ has_acceleration_limits), <- (F2 _ max_acceleration) by reflexivity.
    unfold l3. apply (read_one_spec p _ _ (with_acc l2) _ l2 has_acceleration_limits max_acceleration); auto. }
  split.
  { rewrite (F5 _ has_jerk_limits), (F5 _ max_jerk), <- (F1 _ has_jerk_limits), <- (F1 _ max_jerk),
      <- (F2 _ has_jerk_limits), <- (F2 _ max_jerk), <- (F3 _ has_jerk_limits), <- (F3 _ max_jerk)
      by reflexivity.
    unfold l4. apply (read_one_spec p _ _ (with_jerk l3) _ l3 has_jerk_limits max_jerk); auto. }
  rewrite <- (F1 _ has_effort_limits), <- (F1 _ max_effort),
    <- (F2 _ has_effort_limits), <- (F2 _ max_effort), <- (F3 _ has_effort_limits), <- (F3 _ max_effort),
    <- (F4 _ has_effort_limits), <- (F4 _ max_effort) by reflexivity.
  unfold l5. apply (read_one_spec p _ _ (with_eff l4) _ l4 has_effort_limits max_effort); auto.
Qed.

Lemma rosparam_soft_spec (p : params A) s :
  (forall s', soft_specified p s' -> rosparam_soft (Some p) s = (true, s')) /\
  (soft_missing p -> rosparam_soft (Some p) s = (false, s)).
Proof.
  unfold rosparam_soft, soft_specified, soft_missing, get_bool, has_param, get_into, get_num. split.
  - intros [a b c d] (-> & E1 & E2 & E3 & E4). simpl in *. rewrite E1, E2, E3, E4. reflexivity.
  - intros [G|G].
    + destruct (p "has_soft_limits"%string) as [[[]|x|]|]; auto. congruence.
    + destruct (p "has_soft_limits"%string) as [[[]|x|]|]; auto.
      destruct G as [G|[G|[G|G]]]; rewrite G; rewrite ?andb_false_r; auto.
Qed.

Lemma urdf_spec t u sf l : exists l',
  urdf_limits (Some (mkUJoint t (Some u) sf)) l = (true, l') /\ urdf_updated (A:=A) t u l l'.
Proof.
  eexists. split; [reflexivity|]. unfold urdf_updated.
  destruct t; simpl; intuition congruence.
Qed.

End Sources.
