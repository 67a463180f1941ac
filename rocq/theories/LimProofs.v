(** Proofs about the limit handles that hold for every number type satisfying [laws]. *)
From Verif Require Import LimSpec.

Section Proofs.
Context {A : arith} {fin tame : num A -> Prop} (L : laws A fin tame).
Notation F := (num A).

Implicit Types a b c v lo hi d dt : F.

(** ** Order *)

Lemma le_numl a b : le a b -> numeric a. Proof. intros H; apply H. Qed.
Lemma le_numr a b : le a b -> numeric b. Proof. intros H; apply H. Qed.

Lemma ltb_irrefl a : ltb A a a = false.
Proof.
  destruct (ltb A a a) eqn:E; auto. pose proof (ltb_asym _ _ _ L _ _ E). congruence.
Qed.

Lemma le_refl a : numeric a -> le a a.
Proof. intros H. split; auto. split; auto. apply ltb_irrefl. Qed.

Lemma le_tr a b c : le a b -> le b c -> le a c.
Proof. apply (le_trans _ _ _ L). Qed.

Lemma le_or_lt a b : numeric a -> numeric b -> le a b \/ ltb A b a = true.
Proof. intros Ha Hb. destruct (ltb A b a) eqn:E; auto. left. split; auto. Qed.

Lemma lt_le a b : ltb A a b = true -> le a b.
Proof.
  intros H. destruct (ltb_num _ _ _ L _ _ H). split; auto. split; auto.
  apply (ltb_asym _ _ _ L). auto.
Qed.

Lemma le_lt_false a b : le a b -> ltb A b a = false.
Proof. intros H; apply H. Qed.

Lemma ltb_nan_l a b : isnan A a = true -> ltb A a b = false.
Proof.
  intros H. destruct (ltb A a b) eqn:E; auto. apply (ltb_num _ _ _ L) in E as [E _].
  unfold numeric in E. congruence.
Qed.

Lemma ltb_nan_r a b : isnan A b = true -> ltb A a b = false.
Proof.
  intros H. destruct (ltb A a b) eqn:E; auto. apply (ltb_num _ _ _ L) in E as [_ E].
  unfold numeric in E. congruence.
Qed.

(** ** min, max, saturate *)

Lemma fmax_or a b : fmax a b = a \/ fmax a b = b.
Proof. unfold fmax. destruct (ltb A a b); auto. Qed.
Lemma fmin_or a b : fmin a b = a \/ fmin a b = b.
Proof. unfold fmin. destruct (ltb A b a); auto. Qed.

Lemma fmax_num a b : numeric a -> numeric b -> numeric (fmax a b).
Proof. destruct (fmax_or a b) as [-> | ->]; auto. Qed.
Lemma fmin_num a b : numeric a -> numeric b -> numeric (fmin a b).
Proof. destruct (fmin_or a b) as [-> | ->]; auto. Qed.

Lemma fmax_l a b : numeric a -> numeric b -> le a (fmax a b).
Proof.
  intros Ha Hb. unfold fmax. destruct (ltb A a b) eqn:E; auto using lt_le, le_refl.
Qed.
Lemma fmax_r a b : numeric a -> numeric b -> le b (fmax a b).
Proof.
  intros Ha Hb. unfold fmax. destruct (ltb A a b) eqn:E; auto using le_refl.
  split; auto.
Qed.
Lemma fmin_l a b : numeric a -> numeric b -> le (fmin a b) a.
Proof.
  intros Ha Hb. unfold fmin. destruct (ltb A b a) eqn:E; auto using lt_le, le_refl.
Qed.
Lemma fmin_r a b : numeric a -> numeric b -> le (fmin a b) b.
Proof.
  intros Ha Hb. unfold fmin. destruct (ltb A b a) eqn:E; auto using le_refl.
  split; auto.
Qed.
Lemma fmax_lub a b c : le a c -> le b c -> le (fmax a b) c.
Proof. destruct (fmax_or a b) as [-> | ->]; auto. Qed.
Lemma fmin_glb a b c : le c a -> le c b -> le c (fmin a b).
Proof. destruct (fmin_or a b) as [-> | ->]; auto. Qed.

Lemma sat_num v lo hi : numeric v -> numeric lo -> numeric hi -> numeric (saturate v lo hi).
Proof. intros. apply fmin_num; auto. apply fmax_num; auto. Qed.

Lemma sat_hi v lo hi : numeric v -> numeric lo -> numeric hi -> le (saturate v lo hi) hi.
Proof. intros. apply fmin_r; auto. apply fmax_num; auto. Qed.

(** The result is at least anything below both bounds. *)
Lemma sat_lo v lo hi m : numeric v -> le m lo -> le m hi -> le m (saturate v lo hi).
Proof.
  intros Hv H1 H2. apply fmin_glb; auto.
  apply (le_tr _ lo); auto. apply fmax_r; auto. eapply le_numr; eauto.
Qed.

Lemma sat_within v lo hi : numeric v -> le lo hi -> within lo hi (saturate v lo hi).
Proof.
  intros Hv H. split.
  - apply sat_lo; auto. apply le_refl. eapply le_numl; eauto.
  - apply sat_hi; eauto using le_numl, le_numr.
Qed.

Lemma sat_id v lo hi : le lo v -> le v hi -> saturate v lo hi = v.
Proof.
  intros H1 H2. unfold saturate, fmax, fmin.
  rewrite (le_lt_false _ _ H1). now rewrite (le_lt_false _ _ H2).
Qed.

(** With the bounds in the wrong order the upper one wins. *)
Lemma sat_crossed v lo hi : numeric v -> ltb A hi lo = true -> saturate v lo hi = hi.
Proof.
  intros Hv H. unfold saturate, fmin.
  assert (le lo (fmax v lo)).
  { apply fmax_r; auto. apply (ltb_num _ _ _ L) in H as [_ H]; auto. }
  destruct (ltb A hi (fmax v lo)) eqn:E; auto.
  assert (G : le (fmax v lo) hi).
  { split; [eapply le_numr; eauto|]. split; auto. apply (ltb_num _ _ _ L) in H as [H _]; auto. }
  pose proof (le_tr _ _ _ H0 G) as C. apply le_lt_false in C. congruence.
Qed.

Lemma sat_nan v lo hi : isnan A v = true -> saturate v lo hi = v.
Proof.
  intros H. unfold saturate, fmax, fmin. rewrite (ltb_nan_l v lo) by auto.
  now rewrite (ltb_nan_r hi v) by auto.
Qed.

(** Saturating twice is saturating once, whatever the operands. *)
Lemma sat_idem v lo hi : saturate (saturate v lo hi) lo hi = saturate v lo hi.
Proof.
  destruct (isnan A v) eqn:Nv. { now rewrite !(sat_nan v) by auto. }
  destruct (isnan A lo) eqn:Nl.
  { assert (E : forall v, fmax v lo = v) by (intros; unfold fmax; now rewrite ltb_nan_r by auto).
    unfold saturate. rewrite !E. unfold fmin. destruct (ltb A hi v) eqn:E1.
    - now rewrite ltb_irrefl.
    - now rewrite E1. }
  destruct (isnan A hi) eqn:Nh.
  { assert (E : forall v, fmin v hi = v) by (intros; unfold fmin; now rewrite ltb_nan_l by auto).
    unfold saturate. rewrite !E. unfold fmax. destruct (ltb A v lo) eqn:E1.
    - now rewrite ltb_irrefl.
    - now rewrite E1. }
  destruct (le_or_lt lo hi) as [H|H]; auto.
  - destruct (sat_within v lo hi) as [H1 H2]; auto. apply sat_id; auto.
  - rewrite (sat_crossed v) by auto. apply sat_crossed; auto.
Qed.

(** ** Arithmetic *)

Lemma num_le_zero a : fin a -> numeric a. Proof. apply (fin_num _ _ _ L). Qed.
Hint Resolve num_le_zero : core.

Lemma zero_fin : fin (zero A). Proof. apply (tame_fin _ _ _ L), (zero_tame _ _ _ L). Qed.
Hint Resolve zero_fin : core.

Lemma mul_nonneg a d : fin a -> fin d -> le (zero A) a -> le (zero A) d -> le (zero A) (mul A a d).
Proof.
  intros Fa Fd Ha Hd. apply (le_tr _ (mul A (zero A) d)).
  - apply (mul_zero _ _ _ L); auto.
  - apply (mul_le _ _ _ L); auto.
Qed.

Lemma add_up a d : fin a -> le (zero A) d -> le a (add A a d).
Proof.
  intros Fa Hd. apply (le_tr _ (add A a (zero A))).
  - apply (add_zero _ _ _ L); auto.
  - apply (add_le _ _ _ L); auto.
Qed.

Lemma sub_down a d : fin a -> le (zero A) d -> le (sub A a d) a.
Proof.
  intros Fa Hd. apply (le_tr _ (sub A a (zero A))).
  - apply (sub_le _ _ _ L); auto.
  - apply (sub_zero _ _ _ L); auto.
Qed.

Lemma opp_nonpos a : le (zero A) a -> le (opp A a) (zero A).
Proof.
  intros H. apply (le_tr _ (opp A (zero A))); [|apply (opp_zero _ _ _ L)].
  apply (opp_le _ _ _ L); auto.
Qed.

Lemma opp_self a : le (zero A) a -> le (opp A a) a.
Proof. intros H. apply (le_tr _ (zero A)); auto using opp_nonpos. Qed.

Lemma within_fin lo hi a : fin lo -> fin hi -> within lo hi a -> fin a.
Proof. apply (fin_between _ _ _ L). Qed.

(** The condition on histories, and whether the measured position is the next reference. *)
Definition fresh_after (fresh : bool) (ops : list (lim_op A)) : bool :=
  match rev ops with
  | [] => fresh
  | Enforce j' _ :: _ => isnan A (j_cmd j')
  | Reset :: _ => true
  end.

Lemma fresh_after_cons fresh o ops : fresh_after fresh (o :: ops) =
  fresh_after (match o with Enforce j' _ => isnan A (j_cmd j') | Reset => true end) ops.
Proof. unfold fresh_after. simpl. destruct (rev ops) as [|[]]; destruct o; reflexivity. Qed.

Lemma starts_inside_app P Z fresh ops o :
  starts_inside P Z fresh (ops ++ [o]) ->
  starts_inside P Z fresh ops /\
  match o with
  | Enforce j dt => P dt /\ (fresh_after fresh ops = true -> Z (j_pos j))
  | Reset => True
  end.
Proof.
  revert fresh. induction ops as [|o' ops IH]; intros fresh Hs.
  - split; [exact I|]. destruct o; auto. destruct Hs as (? & ? & ?). auto.
  - rewrite fresh_after_cons. simpl in Hs. destruct o' as [j' dt'|].
    + destruct Hs as (H1 & H2 & H3). apply IH in H3 as [H3 H4]. split; [split|]; auto.
    + apply IH in Hs as [H3 H4]. split; auto.
Qed.

(** ** Position saturation *)

(** The bounds one call of enforceLimits uses. *)
Definition ps_bounds (l : limits A) lo hi ref dt : F * F :=
  if has_velocity_limits l
  then (fmax (sub A ref (mul A (max_velocity l) dt)) lo,
        fmin (add A ref (mul A (max_velocity l) dt)) hi)
  else (lo, hi).

Lemma ps_enforce_eq h j dt : forall ref,
  ref = (if isnan A (ps_prev h) then j_pos j else ps_prev h) ->
  pos_sat_enforce h j dt =
  (let b := ps_bounds (ps_limits h) (ps_min h) (ps_max h) ref dt in
   let c := saturate (j_cmd j) (fst b) (snd b) in
   (mkPosSat (ps_limits h) (ps_min h) (ps_max h) c, set_command j c)).
Proof.
  intros ref ->. unfold pos_sat_enforce, ps_bounds.
  destruct (has_velocity_limits (ps_limits h)); reflexivity.
Qed.

Lemma ps_make_has l : has_position_limits l = true ->
  pos_sat_make l = mkPosSat l (min_position l) (max_position l) (nan A).
Proof. intros H. unfold pos_sat_make. now rewrite H. Qed.

Lemma delta_ok l dt : period_ok fin dt -> fin (max_velocity l) -> le (zero A) (max_velocity l) ->
  le (zero A) (mul A (max_velocity l) dt).
Proof. intros [F1 H1] F2 H2. apply mul_nonneg; auto. Qed.

(** One call with the reference inside the limits. *)
Lemma ps_step l lo hi ref c dt : fin lo -> fin hi -> le lo hi ->
  (has_velocity_limits l = true -> fin (max_velocity l) /\ le (zero A) (max_velocity l)) ->
  period_ok fin dt -> within lo hi ref -> numeric c ->
  let b := ps_bounds l lo hi ref dt in
  within lo hi (saturate c (fst b) (snd b)) /\
  (has_velocity_limits l = true ->
   near (mul A (max_velocity l) dt) ref (saturate c (fst b) (snd b))) /\
  le (fst b) ref /\ le ref (snd b).
Proof.
  intros Fl Fh Hlh Hv Hdt [Hr1 Hr2] Nc. unfold ps_bounds.
  assert (Fr : fin ref) by (eapply within_fin; [exact Fl | exact Fh | split; auto]).
  destruct (has_velocity_limits l) eqn:V; simpl.
  - destruct (Hv eq_refl) as [Fv Pv]. pose proof (delta_ok l dt Hdt Fv Pv) as D.
    pose proof (add_up ref _ Fr D) as U. pose proof (sub_down ref _ Fr D) as W.
    set (d := mul A (max_velocity l) dt) in *.
    assert (B1 : le (fmax (sub A ref d) lo) ref) by (apply fmax_lub; auto).
    assert (B2 : le ref (fmin (add A ref d) hi)) by (apply fmin_glb; auto).
    assert (B : le (fmax (sub A ref d) lo) (fmin (add A ref d) hi)) by (eapply le_tr; eauto).
    destruct (sat_within c _ _ Nc B) as [S1 S2].
    split; [split|split; [|split]]; auto.
    + eapply le_tr; [|exact S1]. apply fmax_r; auto. eapply le_numl; eauto.
    + eapply le_tr; [exact S2|]. apply fmin_r; auto. eapply le_numr; eauto.
    + intros _. split.
      * eapply le_tr; [|exact S1]. apply fmax_l; auto. eapply le_numl; eauto.
      * eapply le_tr; [exact S2|]. apply fmin_l; auto. eapply le_numr; eauto.
  - split; [|split; [discriminate|auto]]. apply sat_within; auto.
Qed.

(** What is known of the handle during its life, [Z] being a set of positions that one call
    does not leave. *)
Definition ps_kept (Z : F -> Prop) (l : limits A) : Prop :=
  (forall ref, Z ref -> numeric ref) /\
  forall ref c dt, period_ok fin dt -> Z ref -> numeric c ->
    Z (let b := ps_bounds l (min_position l) (max_position l) ref dt in
       saturate c (fst b) (snd b)).

Definition ps_inv (Z : F -> Prop) (l : limits A) (fresh : bool) (h : pos_sat A) : Prop :=
  ps_limits h = l /\ ps_min h = min_position l /\ ps_max h = max_position l /\
  isnan A (ps_prev h) = fresh /\ (fresh = false -> Z (ps_prev h)).

Lemma ps_inv_step Z l fresh h j dt : ps_kept Z l -> ps_inv Z l fresh h ->
  period_ok fin dt -> (fresh = true -> Z (j_pos j)) ->
  ps_inv Z l (isnan A (j_cmd j)) (fst (pos_sat_enforce h j dt)).
Proof.
  intros [K1 K2] (E1 & E2 & E3 & E4 & H) Hdt Hj.
  rewrite (ps_enforce_eq h j dt _ eq_refl). cbv zeta. simpl. rewrite E1, E2, E3, E4.
  destruct (isnan A (j_cmd j)) eqn:N.
  - split; auto. split; auto. split; auto. simpl. rewrite sat_nan by auto.
    split; auto. discriminate.
  - assert (R : Z (if fresh then j_pos j else ps_prev h)) by (destruct fresh; auto).
    specialize (K2 _ (j_cmd j) dt Hdt R N). cbv zeta in K2.
    split; auto. split; auto. split; auto. simpl. split; auto.
    apply K1 in K2. exact K2.
Qed.

Lemma ps_after_inv Z l ops : ps_kept Z l -> forall fresh h, ps_inv Z l fresh h ->
  starts_inside (period_ok fin) Z fresh ops ->
  ps_inv Z l (fresh_after fresh ops) (pos_sat_after h ops).
Proof.
  intros Hl. induction ops as [|o ops IH] using rev_ind; intros fresh h Hh Hs; [exact Hh|].
  apply starts_inside_app in Hs as [Hs Ho]. specialize (IH _ _ Hh Hs).
  unfold pos_sat_after. rewrite fold_left_app. fold (pos_sat_after h ops).
  unfold fresh_after at 1. rewrite rev_app_distr. simpl.
  destruct o as [j dt|].
  - destruct Ho as [P2 P3]. apply (ps_inv_step Z l (fresh_after fresh ops)); auto.
  - destruct IH as (E1 & E2 & E3 & E4 & _).
    unfold pos_sat_reset, ps_inv. simpl. rewrite E1, E2, E3. split; auto. split; auto. split; auto.
    split; [apply (nan_nan _ _ _ L)|discriminate].
Qed.

Lemma ps_inv_make Z l : has_position_limits l = true -> ps_inv Z l true (pos_sat_make l).
Proof.
  intros H. rewrite ps_make_has by exact H. unfold ps_inv; simpl.
  split; auto. split; auto. split; auto. split; [apply (nan_nan _ _ _ L)|discriminate].
Qed.

(** The limits are such a set, if the limits are sensible. *)
Lemma inside_kept l : pos_limits_ok fin l -> ps_kept (within (min_position l) (max_position l)) l.
Proof.
  intros (Hp & Fl & Fh & Hlh & Hv). split.
  - intros ref [R _]. eapply le_numr; eauto.
  - intros ref c dt Hdt Hr N. apply (ps_step l _ _ _ c dt Fl Fh Hlh Hv Hdt Hr N).
Qed.

(** So are the finite numbers. *)
Lemma finite_kept l : pos_limits_ok fin l -> ps_kept fin l.
Proof.
  intros (Hp & Fl & Fh & Hlh & Hv). split; auto.
  intros ref c dt Hdt Fr N. unfold ps_bounds. cbv zeta.
  destruct (has_velocity_limits l) eqn:V; simpl.
  - destruct (Hv eq_refl) as [Fv Pv]. pose proof (delta_ok l dt Hdt Fv Pv) as D.
    pose proof (add_up ref _ Fr D) as U. pose proof (sub_down ref _ Fr D) as W.
    set (d := mul A (max_velocity l) dt) in *.
    assert (Na : numeric (add A ref d)) by (eapply le_numr; eauto).
    assert (Ns : numeric (sub A ref d)) by (eapply le_numl; eauto).
    set (lo := fmax _ _). set (hi := fmin _ _).
    assert (Nlo : numeric lo) by (apply fmax_num; auto).
    assert (Nhi : numeric hi) by (apply fmin_num; auto).
    (* between the smaller of ref and the lower limit, and the upper limit *)
    assert (B : fin (fmin ref (min_position l))) by (destruct (fmin_or ref (min_position l)) as [-> | ->]; auto).
    apply (fin_between _ _ _ L (fmin ref (min_position l)) (max_position l)); auto. split.
    + apply sat_lo; auto.
      * apply (le_tr _ (min_position l)); [apply fmin_r; auto|]. apply fmax_r; auto.
      * apply fmin_glb.
        -- apply (le_tr _ ref); auto. apply fmin_l; auto.
        -- apply (le_tr _ (min_position l)); auto. apply fmin_r; auto.
    + eapply le_tr; [apply sat_hi; auto|]. apply fmin_r; auto.
  - apply (fin_between _ _ _ L (min_position l) (max_position l)); auto. apply sat_within; auto.
Qed.

(** The reference of the statements is the one the code uses. *)
Lemma ps_reference Z l ops j : ps_kept Z l -> has_position_limits l = true ->
  starts_inside (period_ok fin) Z true ops ->
  pos_sat_reference l ops j =
  let h := pos_sat_after (pos_sat_make l) ops in
  if isnan A (ps_prev h) then j_pos j else ps_prev h.
Proof.
  intros Hl Hp Hs. pose proof (ps_after_inv Z l ops Hl true _ (ps_inv_make Z l Hp) Hs) as Hi.
  cbv zeta. destruct Hi as (_ & _ & _ & E4 & _). rewrite E4. unfold pos_sat_reference, fresh_after.
  destruct (rev ops) as [|[j' dt'|] before] eqn:E; auto.
  destruct (isnan A (j_cmd j')); auto.
  apply (f_equal (@rev _)) in E. rewrite rev_involutive in E. subst ops. simpl.
  unfold pos_sat_after. rewrite fold_left_app. simpl. fold (pos_sat_after (pos_sat_make l) (rev before)).
  unfold pos_sat_written. rewrite (ps_enforce_eq _ j' dt' _ eq_refl). reflexivity.
Qed.

(** The whole story of the position saturation limiter. *)
Lemma pos_sat_spec l ops j dt : pos_limits_ok fin l ->
  starts_inside (period_ok fin) (within (min_position l) (max_position l)) true (ops ++ [Enforce j dt]) ->
  let w := pos_sat_written l ops j dt in
  let ref := pos_sat_reference l ops j in
  within (min_position l) (max_position l) ref /\
  (numeric (j_cmd j) ->
     within (min_position l) (max_position l) w /\
     (has_velocity_limits l = true -> near (mul A (max_velocity l) dt) ref w)) /\
  (isnan A (j_cmd j) = true -> w = j_cmd j).
Proof.
  intros Hl Hs. apply (starts_inside_app _ _ _ _ (Enforce j dt)) in Hs as (Hs & Hdt & Hj).
  assert (Hp0 : has_position_limits l = true) by apply Hl.
  pose proof (inside_kept l Hl) as Hk.
  pose proof (ps_after_inv _ l ops Hk true _ (ps_inv_make _ l Hp0) Hs) as Hi.
  cbv zeta. rewrite (ps_reference _ l ops j Hk Hp0 Hs). cbv zeta. unfold pos_sat_written.
  set (h := pos_sat_after (pos_sat_make l) ops) in *.
  set (fr := fresh_after true ops) in *.
  destruct Hi as (E1 & E2 & E3 & E4 & H).
  rewrite (ps_enforce_eq h j dt _ eq_refl). cbv zeta. simpl. rewrite E1, E2, E3, E4.
  assert (R : within (min_position l) (max_position l) (if fr then j_pos j else ps_prev h))
    by (destruct fr; auto).
  split; auto. destruct Hl as (Hp & Fl & Fh & Hlh & Hv). split.
  - intros N. destruct (ps_step l _ _ _ (j_cmd j) dt Fl Fh Hlh Hv Hdt R N) as (S1 & S2 & _). auto.
  - intros N. apply sat_nan; auto.
Qed.

(** A command inside the limits and near the reference is left alone. *)
Lemma pos_sat_transparent l ops j dt : pos_limits_ok fin l ->
  starts_inside (period_ok fin) (within (min_position l) (max_position l)) true (ops ++ [Enforce j dt]) ->
  within (min_position l) (max_position l) (j_cmd j) ->
  (has_velocity_limits l = true ->
   near (mul A (max_velocity l) dt) (pos_sat_reference l ops j) (j_cmd j)) ->
  pos_sat_written l ops j dt = j_cmd j.
Proof.
  intros Hl Hs [C1 C2] Hn. apply (starts_inside_app _ _ _ _ (Enforce j dt)) in Hs as (Hs & Hdt & Hj).
  assert (Hp0 : has_position_limits l = true) by apply Hl.
  pose proof (inside_kept l Hl) as Hk.
  pose proof (ps_after_inv _ l ops Hk true _ (ps_inv_make _ l Hp0) Hs) as Hi.
  rewrite (ps_reference _ l ops j Hk Hp0 Hs) in Hn. cbv zeta in Hn.
  unfold pos_sat_written. set (h := pos_sat_after (pos_sat_make l) ops) in *.
  destruct Hi as (E1 & E2 & E3 & E4 & H).
  rewrite (ps_enforce_eq h j dt _ eq_refl). cbv zeta. simpl. rewrite E1, E2, E3.
  unfold ps_bounds. destruct (has_velocity_limits l) eqn:V; simpl.
  - destruct (Hn eq_refl) as [N1 N2]. apply sat_id.
    + apply fmax_lub; auto.
    + apply fmin_glb; auto.
  - apply sat_id; auto.
Qed.

(** Without any assumption on the reference: the upper limit always holds. *)
Lemma pos_sat_any l h j dt : pos_limits_ok fin l ->
  ps_limits h = l -> ps_min h = min_position l -> ps_max h = max_position l ->
  period_ok fin dt -> numeric (j_cmd j) ->
  let ref := if isnan A (ps_prev h) then j_pos j else ps_prev h in
  fin ref ->
  let w := j_cmd (snd (pos_sat_enforce h j dt)) in
  le w (max_position l) /\
  (has_velocity_limits l = false -> within (min_position l) (max_position l) w) /\
  (has_velocity_limits l = true ->
    lt (add A ref (mul A (max_velocity l) dt)) (min_position l) ->
    w = add A ref (mul A (max_velocity l) dt)) /\
  (has_velocity_limits l = true ->
    le (min_position l) (add A ref (mul A (max_velocity l) dt)) -> le (min_position l) w).
Proof.
  intros (Hp & Fl & Fh & Hlh & Hv) E1 E2 E3 Hdt N ref Fr.
  cbv zeta. rewrite (ps_enforce_eq h j dt ref eq_refl). cbv zeta. simpl. rewrite E1, E2, E3.
  unfold ps_bounds. destruct (has_velocity_limits l) eqn:V; simpl.
  - destruct (Hv eq_refl) as [Fv Pv]. pose proof (delta_ok l dt Hdt Fv Pv) as D.
    pose proof (add_up ref _ Fr D) as U. pose proof (sub_down ref _ Fr D) as W.
    set (d := mul A (max_velocity l) dt) in *.
    assert (Na : numeric (add A ref d)) by (eapply le_numr; eauto).
    assert (Ns : numeric (sub A ref d)) by (eapply le_numl; eauto).
    assert (Nlo : numeric (fmax (sub A ref d) (min_position l))) by (apply fmax_num; auto).
    assert (Nhi : numeric (fmin (add A ref d) (max_position l))) by (apply fmin_num; auto).
    split; [|split; [discriminate|split]].
    + eapply le_tr; [apply sat_hi; auto|]. apply fmin_r; auto.
    + intros _ H.
      assert (Hlo : le (min_position l) (fmax (sub A ref d) (min_position l))) by (apply fmax_r; auto).
      assert (Hm : le (add A ref d) (max_position l)) by (eapply le_tr; [apply lt_le; exact H|auto]).
      assert (E : fmin (add A ref d) (max_position l) = add A ref d).
      { unfold fmin. now rewrite (le_lt_false _ _ Hm). }
      rewrite E. apply sat_crossed; auto.
      destruct (ltb A (add A ref d) (fmax (sub A ref d) (min_position l))) eqn:G; auto.
      assert (C : le (min_position l) (add A ref d)).
      { eapply le_tr; [exact Hlo|]. split; auto. }
      apply le_lt_false in C. unfold lt in H. congruence.
    + intros _ H. apply sat_lo; auto. apply fmax_r; auto. apply fmin_glb; auto.
  - split; [|split; [|split; discriminate]].
    + apply sat_hi; auto.
    + intros _. apply sat_within; auto.
Qed.

(** Over histories in which the measured position is just any finite number. *)
Lemma pos_sat_outside l ops j dt : pos_limits_ok fin l ->
  starts_inside (period_ok fin) fin true (ops ++ [Enforce j dt]) -> numeric (j_cmd j) ->
  let w := pos_sat_written l ops j dt in
  let ref := pos_sat_reference l ops j in
  let ahead := add A ref (mul A (max_velocity l) dt) in
  le w (max_position l) /\
  (has_velocity_limits l = false -> within (min_position l) (max_position l) w) /\
  (has_velocity_limits l = true -> lt ahead (min_position l) -> w = ahead) /\
  (has_velocity_limits l = true -> le (min_position l) ahead ->
   within (min_position l) (max_position l) w).
Proof.
  intros Hl Hs N. apply (starts_inside_app _ _ _ _ (Enforce j dt)) in Hs as (Hs & Hdt & Hj).
  assert (Hp0 : has_position_limits l = true) by apply Hl.
  pose proof (finite_kept l Hl) as Hk.
  pose proof (ps_after_inv _ l ops Hk true _ (ps_inv_make _ l Hp0) Hs) as Hi.
  cbv zeta. rewrite (ps_reference _ l ops j Hk Hp0 Hs). cbv zeta. unfold pos_sat_written.
  set (h := pos_sat_after (pos_sat_make l) ops) in *. destruct Hi as (E1 & E2 & E3 & E4 & H).
  destruct (pos_sat_any l h j dt Hl E1 E2 E3 Hdt N) as (S1 & S2 & S3 & S4).
  { rewrite E4. destruct (fresh_after true ops); auto. }
  split; auto. split; auto. split; auto. intros V G. split; auto.
Qed.

End Proofs.
