(** Joints outside their limits: how fast the position and velocity limiters bring them back, in exact arithmetic. *)
From Coq Require Import QArith Qminmax Qpower Lqa Lia.
From Verif Require Import LimBackSpec LimProofs LimRest LimExact LimGain LimNear LimMisc.
Local Open Scope list_scope.

(** The distance [d] from a soft limit becomes [d']: at least [p] times the permitted velocity less, or nothing is left. *)
Definition shrunk (k v p d d' : Q) : Prop := d' <= 0 \/ 0 < d /\ d' <= d - p * Qmin (k * d) v.

(** [n] steps. *)
Inductive steps (R : Q -> Q -> Prop) : nat -> Q -> Q -> Prop :=
| st_nil x : steps R 0 x x
| st_cons n x y z : R x y -> steps R n y z -> steps R (S n) x z.

Lemma steps_map (R R' : Q -> Q -> Prop) (f : Q -> Q) : (forall x y, R x y -> R' (f x) (f y)) ->
  forall n x y, steps R n x y -> steps R' n (f x) (f y).
Proof. intros H n x y. induction 1; econstructor; eauto. Qed.

Lemma Qmin_cases a b : Qmin a b == a /\ a <= b \/ Qmin a b == b /\ b <= a.
Proof. destruct (Q.min_spec a b) as [[H E]|[H E]]; [left|right]; split; auto. now apply Qlt_le_weak. Qed.

Lemma Qmul_nonneg a b : 0 <= a -> 0 <= b -> 0 <= a * b.
Proof. intros. apply Qmult_le_0_compat; auto. Qed.
Lemma Qmul_mono c a b : 0 <= c -> a <= b -> c * a <= c * b.
Proof. intros. rewrite (Qmult_comm c a), (Qmult_comm c b). apply Qmult_le_compat_r; auto. Qed.

Lemma Qmin_mono k v d e : 0 <= k -> d <= e -> Qmin (k * d) v <= Qmin (k * e) v.
Proof.
  intros Pk H. pose proof (Qmul_mono k d e Pk H).
  destruct (Qmin_cases (k * d) v) as [[-> ?]|[-> ?]], (Qmin_cases (k * e) v) as [[-> ?]|[-> ?]]; lra.
Qed.
Lemma Qmin_nonneg k v d : 0 <= k -> 0 <= v -> 0 <= d -> 0 <= Qmin (k * d) v.
Proof. intros. pose proof (Qmul_nonneg k d). destruct (Qmin_cases (k * d) v) as [[-> ?]|[-> ?]]; auto. Qed.

Lemma shrunk_weak k v p q d d' : 0 <= k -> 0 <= v -> p <= q -> shrunk k v q d d' -> shrunk k v p d d'.
Proof.
  intros Pk Pv H [S|[P S]]; [left; auto|right; split; auto].
  pose proof (Qmin_nonneg k v d Pk Pv (Qlt_le_weak _ _ P)) as M.
  pose proof (Qmult_le_compat_r p q _ H M). lra.
Qed.

Lemma approach k v p eps n d d' : 0 <= k -> 0 <= v -> 0 <= p -> 0 <= eps -> steps (shrunk k v p) n d d' ->
  d' <= eps \/ d' <= d - inject_Z (Z.of_nat n) * (p * Qmin (k * eps) v).
Proof.
  intros Pk Pv Pp Pe. set (c := p * Qmin (k * eps) v).
  assert (Pc : 0 <= c) by (apply Qmul_nonneg; auto; apply Qmin_nonneg; auto).
  assert (Stay : forall n d d', steps (shrunk k v p) n d d' -> d <= eps -> d' <= eps).
  { intros n0 x y. induction 1 as [|n0 x y z R S IH]; intros H; auto. apply IH.
    destruct R as [R|[P R]]; [lra|].
    pose proof (Qmul_nonneg p _ Pp (Qmin_nonneg k v x Pk Pv (Qlt_le_weak _ _ P))). lra. }
  induction 1 as [x|n x y z R S IH]; [right; change (inject_Z (Z.of_nat 0)) with 0; lra|].
  destruct (Qlt_le_dec eps y) as [G|G].
  - destruct IH as [IH|IH]; [left; auto|]. right.
    rewrite Nat2Z.inj_succ. unfold Z.succ. rewrite inject_Z_plus. change (inject_Z 1) with 1.
    destruct R as [R|[P R]]; [lra|].
    assert (M : p * Qmin (k * eps) v <= p * Qmin (k * x) v).
    { apply Qmul_mono; auto. apply Qmin_mono; auto.
      pose proof (Qmul_nonneg p _ Pp (Qmin_nonneg k v x Pk Pv (Qlt_le_weak _ _ P))). lra. }
    fold c in M. lra.
  - left. exact (Stay _ _ _ S G).
Qed.

Lemma geometric k v p n d d' : 0 <= k -> 0 <= p -> k * p <= 1 -> steps (shrunk k v p) n d d' ->
  0 <= d -> k * d <= v -> d' <= Qpower (1 - k * p) (Z.of_nat n) * d.
Proof.
  intros Pk Pp Kp H. induction H as [x|n x y z R S IH]; intros Pd Kd; [change (Qpower _ _) with 1; lra|].
  set (g := 1 - k * p) in *. assert (Pg : 0 <= g) by (unfold g; lra).
  assert (Pn : 0 <= Qpower g (Z.of_nat n)) by (apply Qpower_pos; auto).
  assert (E : Qpower g (Z.of_nat (Datatypes.S n)) == Qpower g (Z.of_nat n) * g).
  { rewrite Nat2Z.inj_succ. unfold Z.succ. destruct (Qeq_dec g 0) as [Z0|N0].
    - destruct n; [simpl; lra|]. rewrite Nat2Z.inj_succ.
      rewrite Z0 at 3. rewrite Qmult_0_r. rewrite Z0. apply Qpower_0. lia.
    - rewrite Qpower_plus by auto. reflexivity. }
  rewrite E, <- Qmult_assoc.
  assert (Le : y <= g * x).
  { destruct R as [R|[P R]].
    - pose proof (Qmul_nonneg g x Pg Pd). lra.
    - destruct (Q.min_spec (k * x) v) as [[? M]|[? M]]; rewrite M in R.
      + unfold g. lra.
      + assert (Ev : v == k * x) by lra. assert (Ep : p * v == k * p * x) by (rewrite Ev; ring). unfold g. lra. }
  destruct (Qlt_le_dec y 0) as [Neg|Pos].
  - (* once at the limit it stays there *)
    assert (Stay : forall n d d', steps (shrunk k v p) n d d' -> d <= 0 -> d' <= 0).
    { intros n0 a b. induction 1 as [|n0 a b c R' S' IH']; intros H'; auto. apply IH'.
      destruct R' as [R'|[P R']]; lra. }
    pose proof (Stay _ _ _ S (Qlt_le_weak _ _ Neg)).
    pose proof (Qmul_nonneg _ _ Pn (Qmul_nonneg _ _ Pg Pd)). lra.
  - apply Qle_trans with (Qpower g (Z.of_nat n) * y); [|apply Qmul_mono; auto].
    apply IH; auto. apply Qle_trans with (k * x); auto. apply Qmul_mono; auto.
    apply Qle_trans with (g * x); auto. unfold g.
    pose proof (Qmul_nonneg _ _ (Qmul_nonneg _ _ Pk Pp) Pd). lra.
Qed.

Lemma steps_snoc (R : Q -> Q -> Prop) n x y z : steps R n x y -> R y z -> steps R (S n) x z.
Proof. induction 1; intros; econstructor; eauto. constructor. Qed.
Lemma steps_one (R : Q -> Q -> Prop) x y : R x y -> steps R 1 x y.
Proof. intros. econstructor; eauto. constructor. Qed.
Lemma steps_weak (R R' : Q -> Q -> Prop) : (forall x y, R x y -> R' x y) -> forall n x y, steps R n x y -> steps R' n x y.
Proof. intros H n x y. induction 1; econstructor; eauto. Qed.

(** ** The operations on rationals *)


Lemma qfmax a b : exists c, @fmax exact (Some a) (Some b) = Some c /\ (c == a /\ b <= a \/ c == b /\ a <= b).
Proof.
  unfold fmax. cbn. destruct (Qlt_bool a b) eqn:E; eexists; (split; [reflexivity|]).
  - apply Qlt_bool_iff in E. right. split; [reflexivity|lra].
  - apply Qlt_bool_false in E. left. split; [reflexivity|lra].
Qed.
Lemma qfmin a b : exists c, @fmin exact (Some a) (Some b) = Some c /\ (c == a /\ a <= b \/ c == b /\ b <= a).
Proof.
  unfold fmin. cbn. destruct (Qlt_bool b a) eqn:E; eexists; (split; [reflexivity|]).
  - apply Qlt_bool_iff in E. right. split; [reflexivity|lra].
  - apply Qlt_bool_false in E. left. split; [reflexivity|lra].
Qed.
(** Whatever the command is, what is written is between the bounds, or the upper one. *)
Lemma qsat c lo hi : exists w, @saturate exact (Some c) (Some lo) (Some hi) = Some w /\ w <= hi /\ (lo <= w \/ w == hi).
Proof.
  unfold saturate. destruct (qfmax c lo) as (m & -> & M). destruct (qfmin m hi) as (w & -> & W).
  exists w. split; [reflexivity|]. split; [lra|]. destruct W as [[W ?]|[W ?]]; [left|right]; lra.
Qed.

(** The soft velocity towards the limit [b]. *)
Lemma qsoft (s : soft_limits exact) k v x b : k_position s = Some k -> 0 <= v -> exists u,
  @soft_vel exact s (Some v) (Some x) (Some b) = Some u /\
  (u == - v /\ - k * (x - b) <= - v \/ u == v /\ v <= - k * (x - b) \/ u == - k * (x - b) /\ - v <= u <= v).
Proof.
  intros Ek Pv. unfold soft_vel. rewrite Ek. cbn [opp mul sub exact lift2 option_map].
  destruct (qfmax (- k * (x - b)) (- v)) as (m & E1 & M). unfold saturate.
  rewrite E1. destruct (qfmin m v) as (w & E2 & W). rewrite E2. exists w. split; [reflexivity|].
  destruct M as [[M ?]|[M ?]], W as [[W ?]|[W ?]]; lra.
Qed.

(** One period of the soft limits: the distances from both soft limits shrink. *)
Definition pulled (k v lo hi p x y : Q) : Prop := shrunk k v p (x - hi) (y - hi) /\ shrunk k v p (lo - x) (lo - y).

Lemma pulled_up k v hi dt x u y : 0 <= k -> 0 <= v -> 0 < dt -> k * dt <= 1 ->
  (u == - v /\ - k * (x - hi) <= - v \/ u == v /\ v <= - k * (x - hi) \/ u == - k * (x - hi) /\ - v <= u <= v) ->
  y <= x + u * dt -> shrunk k v dt (x - hi) (y - hi).
Proof.
  intros Pk Pv Pd Kd U Y. assert (Pd' : 0 <= dt) by lra. destruct (Qlt_le_dec hi x) as [H|H].
  - right. split; [lra|]. set (d := x - hi) in *.
    assert (Pkd : 0 <= k * d) by (apply Qmul_nonneg; unfold d; lra).
    assert (M : u <= - Qmin (k * d) v).
    { destruct (Qmin_cases (k * d) v) as [[-> ?]|[-> ?]]; destruct U as [[E ?]|[[E ?]|[E ?]]]; rewrite E; lra. }
    pose proof (Qmult_le_compat_r _ _ _ M Pd').
    assert (E : - Qmin (k * d) v * dt == - (dt * Qmin (k * d) v)) by ring. rewrite E in H0. unfold d in *. lra.
  - left. set (d := hi - x) in *. assert (Pd0 : 0 <= d) by (unfold d; lra).
    assert (Pkd : 0 <= k * d) by (apply Qmul_nonneg; auto).
    assert (M : u <= k * d).
    { assert (E : - k * (x - hi) == k * d) by (unfold d; ring). rewrite E in U. lra. }
    pose proof (Qmult_le_compat_r _ _ _ M Pd').
    pose proof (Qmult_le_compat_r _ _ _ Kd Pd0) as G.
    assert (E : k * d * dt == k * dt * d) by ring. unfold d in *. lra.
Qed.

(** What the velocity towards the lower soft limit leads to. *)
Lemma pulled_low k v lo dt x u y : 0 <= k -> 0 <= v -> 0 < dt -> k * dt <= 1 ->
  (u == - v /\ - k * (x - lo) <= - v \/ u == v /\ v <= - k * (x - lo) \/ u == - k * (x - lo) /\ - v <= u <= v) ->
  x + u * dt <= y \/ lo <= y -> shrunk k v dt (lo - x) (lo - y).
Proof.
  intros Pk Pv Pd Kd U [Y|Y]; [|left; lra].
  assert (U' : - u == - v /\ - k * (- x - - lo) <= - v \/ - u == v /\ v <= - k * (- x - - lo) \/ - u == - k * (- x - - lo) /\ - v <= - u <= v).
  { assert (E : - k * (- x - - lo) == - (- k * (x - lo))) by ring. rewrite E. lra. }
  pose proof (pulled_up k v (- lo) dt (- x) (- u) (- y) Pk Pv Pd Kd U') as S.
  assert (Y' : - y <= - x + - u * dt) by (assert (E : - u * dt == - (u * dt)) by ring; rewrite E; lra).
  specialize (S Y'). destruct S as [S|[P S]]; [left; lra|right]. split; [lra|].
  assert (E : - x - - lo == lo - x) by ring.
  assert (Em : Qmin (k * (- x - - lo)) v == Qmin (k * (lo - x)) v) by (now rewrite E). rewrite Em in S. lra.
Qed.

(** The velocity towards the lower limit is not above the other one, and does not carry over its limit. *)
Lemma soft_order k v lo hi x u u' : 0 <= k -> 0 <= v -> lo <= hi ->
  (u == - v /\ - k * (x - lo) <= - v \/ u == v /\ v <= - k * (x - lo) \/ u == - k * (x - lo) /\ - v <= u <= v) ->
  (u' == - v /\ - k * (x - hi) <= - v \/ u' == v /\ v <= - k * (x - hi) \/ u' == - k * (x - hi) /\ - v <= u' <= v) -> u <= u'.
Proof.
  intros Pk Pv H U U'. assert (M : - k * (x - lo) <= - k * (x - hi)).
  { pose proof (Qmul_mono k lo hi Pk H). assert (- k * (x - lo) == k * lo - k * x) by ring.
    assert (- k * (x - hi) == k * hi - k * x) by ring. lra. }
  destruct U as [[? ?]|[[? ?]|[? ?]]], U' as [[? ?]|[[? ?]|[? ?]]]; lra.
Qed.
Lemma soft_reach k v lo dt x u : 0 <= k -> 0 <= v -> 0 < dt -> k * dt <= 1 ->
  (u == - v /\ - k * (x - lo) <= - v \/ u == v /\ v <= - k * (x - lo) \/ u == - k * (x - lo) /\ - v <= u <= v) ->
  x <= lo -> x + u * dt <= lo.
Proof.
  intros Pk Pv Pd Kd U H. destruct (pulled_up k v lo dt x u (x + u * dt) Pk Pv Pd Kd U (Qle_refl _)) as [S|[P S]]; lra.
Qed.

Section Position.
Context (l : limits exact) (s : soft_limits exact) (k v lo hi : Q).
Hypothesis Hok : soft_position_ok rational l s.
Hypothesis Ek : k_position s = Some k.
Hypothesis Ev : max_velocity l = Some v.
Hypothesis Elo : soft_min s = Some lo.
Hypothesis Ehi : soft_max s = Some hi.

Lemma soft_call h j dt x : pf_limits h = l -> pf_soft h = s ->
  (if isnan exact (pf_prev h) then j_pos j else pf_prev h) = Some x ->
  numeric (j_cmd j) -> soft_period rational gain_exact s dt ->
  exists y d, dt = Some d /\ pos_soft_enforce h j dt = Some (mkPosSoft l s (Some y), set_command j (Some y)) /\ pulled k v lo hi d x y.
Proof.
  intros E1 E2 Er Nc (Fd & Pd & (k' & d & K1 & K2 & K3)). rewrite Ek in K1. injection K1 as <-. subst dt.
  destruct Hok as ((Hp & Hv & Sl & Sh & Hlh & (Sv & Pv)) & (Ss1 & Ss2 & Hs & (Sk & Pk) & Hkv) & X1 & X2).
  rewrite Ev in *. rewrite Ek in *. rewrite Elo in *. rewrite Ehi in *.
  destruct (min_position l) as [mn|] eqn:Emn; [|now elim Sl]. destruct (max_position l) as [mx|] eqn:Emx; [|now elim Sh].
  apply exact_le_some in Hlh, Pv, Hs, Pk, X1, X2. assert (Pd' : 0 < d) by (apply Qlt_bool_iff; exact Pd).
  destruct (j_cmd j) as [c|] eqn:Ec; [|discriminate Nc].
  rewrite (pf_enforce_eq h j (Some d) (Some x) (eq_sym Er) Pd). cbv zeta. rewrite E1, E2. unfold pf_bounds. rewrite Hp. cbv zeta.
  rewrite Ev, Elo, Ehi, Emn, Emx, Ec.
  destruct (qsoft s k v x lo Ek Pv) as (u1 & -> & U1). destruct (qsoft s k v x hi Ek Pv) as (u2 & -> & U2).
  cbn [add mul exact lift2 fst snd].
  destruct (qfmax (x + u1 * d) mn) as (a & Ea & Ha). destruct (qfmin (x + u2 * d) mx) as (b & Eb & Hb).
  destruct (qsat c a b) as (y & Ey & Y1 & Y2).
  cbn [fst snd]. rewrite Ea, Eb, Ey. exists y, d. split; [reflexivity|]. split; [reflexivity|].
  split.
  - apply (pulled_up k v hi d x u2 y); auto. lra.
  - apply (pulled_low k v lo d x u1 y); auto.
    pose proof (soft_order k v lo hi x u1 u2 Pk Pv Hs U1 U2) as O.
    assert (M : x + u1 * d <= x + u2 * d) by (pose proof (Qmult_le_compat_r _ _ d O (Qlt_le_weak _ _ Pd')); lra).
    destruct (Qlt_le_dec x lo) as [Hx|Hx].
    + pose proof (soft_reach k v lo d x u1 Pk Pv Pd' K3 U1 (Qlt_le_weak _ _ Hx)). left. lra.
    + (* from inside the lower limit is not passed *)
      assert (Up : lo <= x + u1 * d).
      { destruct (pulled_low k v lo d x u1 (x + u1 * d) Pk Pv Pd' K3 U1 (or_introl (Qle_refl _))) as [S|[P S]]; lra. }
      right. lra.
Qed.

Context (ops : list (lim_op exact)) (h0 h : pos_soft exact) (x p : Q).
Hypothesis Hm : pos_soft_make l s = Some h0.
Hypothesis Ha : pos_soft_after h0 ops = Some h.

(** One call, after any history. *)
Lemma soft_once ops' h' j dt y : pos_soft_after h0 ops' = Some h' ->
  pos_soft_reference l s ops' j = Some (Some y) -> numeric (j_cmd j) -> soft_period rational gain_exact s dt ->
  exists w h'' d, dt = Some d /\ pos_soft_after h0 (ops' ++ [Enforce j dt]) = Some h'' /\
    pos_soft_written l s ops' j dt = Some (Some w) /\ pulled k v lo hi d y w.
Proof.
  intros A' R Nc P. unfold pos_soft_written. rewrite Hm, A'.
  unfold pos_soft_make in Hm. destruct (has_velocity_limits l) eqn:V; [|discriminate]. injection Hm as <-.
  pose proof (pf_reference_eq exact_laws _ _ _ _ _ _ V A' R eq_refl) as E. symmetry in E.
  destruct (pf_after_const _ _ _ A') as [E1 E2]. simpl in E1, E2.
  destruct (soft_call h' j dt y E1 E2 E Nc P) as (w & d & Ed & Ew & S).
  exists w, (mkPosSoft l s (Some w)), d. split; auto. rewrite pf_after_app, A'. unfold pos_soft_after. simpl. rewrite Ew.
  simpl. auto.
Qed.

Lemma soft_calls before : forall j dt, 0 <= p ->
  pos_soft_reference l s ops (fst (hd (j, dt) before)) = Some (Some x) ->
  Forall (fun c => numeric (j_cmd (fst c)) /\ soft_period rational gain_exact s (snd c) /\ le (Some p : num exact) (snd c)) (before ++ [(j, dt)]) ->
  exists w h', pos_soft_after h0 (ops ++ enforced before ++ [Enforce j dt]) = Some h' /\
    pos_soft_written l s (ops ++ enforced before) j dt = Some (Some w) /\
    steps (pulled k v lo hi p) (S (length before)) x w.
Proof.
  assert (Weak : forall d y w, 0 <= p -> le (Some p : num exact) (Some d) -> pulled k v lo hi d y w -> pulled k v lo hi p y w).
  { destruct Hok as ((_ & _ & _ & _ & _ & (_ & Pv)) & (_ & _ & _ & (_ & Pk) & _) & _). rewrite Ev in Pv. rewrite Ek in Pk.
    apply exact_le_some in Pv, Pk.
    intros d y w Pp G [S1 S2]. apply exact_le_some in G. split; apply (shrunk_weak k v p d); auto. }
  induction before as [|[j' dt'] before IH] using rev_ind; intros j dt Pp R F; apply Forall_app in F as [F0 F]; inversion F as [|? ? (Nc & P & G) _]; subst; cbn [fst snd] in *.
  - unfold enforced. cbn [map app]. rewrite app_nil_r. destruct (soft_once ops h j dt x Ha R Nc P) as (w & h' & d & -> & A' & W & S).
    exists w, h'. split; [exact A'|]. split; [exact W|]. apply steps_one. apply (Weak d); auto.
  - destruct (IH j' dt') as (y & h' & A' & W & S); auto.
    { destruct before; exact R. }
    unfold enforced in *. rewrite map_app. cbn [map fst snd]. rewrite app_assoc in A' |- *.
    assert (R' : pos_soft_reference l s ((ops ++ map (fun c => Enforce (fst c) (snd c)) before) ++ [Enforce j' dt']) j = Some (Some y)).
    { unfold pos_soft_reference. rewrite rev_app_distr. cbn [rev app]. rewrite rev_involutive, W.
      apply Forall_app in F0 as [_ F0]. inversion F0 as [|? ? (Nc' & _) _]. unfold numeric in Nc'. cbn [fst] in Nc'. now rewrite Nc'. }
    rewrite !app_assoc. destruct (soft_once _ h' j dt y A' R' Nc P) as (w & h'' & d & -> & A'' & W' & S').
    exists w, h''. split; [exact A''|]. split; [exact W'|]. rewrite app_length, Nat.add_1_r. eapply steps_snoc; [exact S|].
    apply (Weak d); auto.
Qed.
End Position.

Lemma pulled_result k v lo hi p n x w : 0 <= k -> 0 <= v -> 0 <= p -> steps (pulled k v lo hi p) n x w ->
  (forall eps, 0 <= eps -> let way := inject_Z (Z.of_nat n) * (p * Qmin (k * eps) v) in
     (x - hi <= eps + way -> w <= hi + eps) /\ (lo - x <= eps + way -> lo - eps <= w)) /\
  (k * p <= 1 -> hi <= x -> k * (x - hi) <= v -> w - hi <= Qpower (1 - k * p) (Z.of_nat n) * (x - hi)) /\
  (k * p <= 1 -> x <= lo -> k * (lo - x) <= v -> lo - w <= Qpower (1 - k * p) (Z.of_nat n) * (lo - x)).
Proof.
  intros Pk Pv Pp S.
  pose proof (steps_map (pulled k v lo hi p) (shrunk k v p) (fun x => x - hi) (fun x y H => proj1 H) _ _ _ S) as S1.
  pose proof (steps_map (pulled k v lo hi p) (shrunk k v p) (fun x => lo - x) (fun x y H => proj2 H) _ _ _ S) as S2.
  cbv beta in S1, S2. split; [|split].
  - intros eps Pe way. pose proof (approach k v p eps _ _ _ Pk Pv Pp Pe S1). pose proof (approach k v p eps _ _ _ Pk Pv Pp Pe S2).
    fold way in H, H0. split; intros; lra.
  - intros Kp H1 H2. apply (geometric k v); auto. lra.
  - intros Kp H1 H2. apply (geometric k v); auto. lra.
Qed.

(** ** A joint following the soft velocity limiter *)
Lemma follow_pulled (h : vel_soft exact) k v lo hi p : has_position_limits (vf_limits h) = true ->
  has_acceleration_limits (vf_limits h) = false -> k_position (vf_soft h) = Some k -> vf_max h = Some v ->
  soft_min (vf_soft h) = Some lo -> soft_max (vf_soft h) = Some hi -> 0 <= k -> 0 <= v -> 0 <= p -> lo <= hi ->
  forall l x, Forall (fun o => numeric (snd (fst o)) /\ soft_period rational gain_exact (vf_soft h) (snd o) /\ le (Some p : num exact) (snd o)) l ->
  exists w, follow h (Some x) l = Some w /\ steps (pulled k v lo hi p) (length l) x w.
Proof.
  intros Hp Ha Ek Ev Elo Ehi Pk Pv Pp Hs. induction l as [|[[vel c] dt] l IH]; intros x F.
  - exists x. split; [reflexivity|constructor].
  - inversion F as [|? ? (Nc & (Fd & Pd & (k' & d & K1 & K2 & K3)) & G) F']; subst. cbn [fst snd] in *. subst dt.
    rewrite Ek in K1. injection K1 as <-. destruct c as [c|]; [|discriminate Nc].
    assert (Pd' : 0 < d) by (apply Qlt_bool_iff; exact Pd).
    apply exact_le_some in G.
    destruct (qsoft (vf_soft h) k v x lo Ek Pv) as (u1 & E1 & U1). destruct (qsoft (vf_soft h) k v x hi Ek Pv) as (u2 & E2 & U2).
    destruct (qsat c u1 u2) as (u & Eu & Y1 & Y2).
    pose proof (soft_order k v lo hi x u1 u2 Pk Pv Hs U1 U2) as O.
    cbn [follow]. unfold vel_soft_enforce. rewrite Hp, Ha, Ev, Elo, Ehi. cbn [j_pos j_cmd]. rewrite E1, E2. cbn [set_command j_cmd]. rewrite Eu.
    cbn [add mul exact lift2].
    destruct (IH (x + u * d) F') as (w & W & S). exists w. split; [exact W|]. econstructor; [|exact S].
    assert (M1 : u * d <= u2 * d) by (apply Qmult_le_compat_r; lra).
    assert (M2 : u1 * d <= u * d) by (apply Qmult_le_compat_r; lra).
    split; apply (shrunk_weak k v p d); auto.
    + apply (pulled_up k v hi d x u2); auto. lra.
    + apply (pulled_low k v lo d x u1); auto. left. lra.
Qed.

(** ** Position saturation *)
Lemma sat_calls (l : limits exact) ops x p v lo hi : pos_limits_ok rational l -> has_velocity_limits l = true ->
  max_velocity l = Some v -> min_position l = Some lo -> max_position l = Some hi -> 0 <= p ->
  forall before j dt, pos_sat_reference l ops (fst (hd (j, dt) before)) = Some x ->
  Forall (fun c => numeric (j_cmd (fst c)) /\ rational (snd c) /\ le (Some p : num exact) (snd c)) (before ++ [(j, dt)]) ->
  exists w, pos_sat_written l (ops ++ enforced before) j dt = Some w /\ w <= hi /\
    (lo <= w \/ x + inject_Z (Z.of_nat (S (length before))) * (p * v) <= w).
Proof.
  intros Hok V Ev Elo Ehi Pp.
  assert (Pv : 0 <= v).
  { destruct Hok as (_ & _ & _ & _ & Hv). destruct (Hv V) as [_ Pv]. rewrite Ev in Pv. now apply exact_le_some in Pv. }
  assert (Once : forall ops' j dt y, pos_sat_reference l ops' j = Some y -> numeric (j_cmd j) -> rational dt -> le (Some p : num exact) dt ->
    exists w, pos_sat_written l ops' j dt = Some w /\ w <= hi /\ (lo <= w \/ y + p * v <= w)).
  { intros ops' j dt y R Nc Rd G. destruct dt as [d|]; [|now elim Rd]. apply exact_le_some in G.
    pose proof (ps_reference_eq exact_laws l ops' j) as E. rewrite R in E. specialize (E eq_refl). cbv zeta in E.
    destruct (ps_after_const (pos_sat_make l) ops') as (E1 & E2 & E3). destruct (ps_make_prev exact_laws l) as [_ E0].
    assert (M : ps_min (pos_sat_make l) = min_position l /\ ps_max (pos_sat_make l) = max_position l).
    { unfold pos_sat_make. destruct Hok as (Hp & _). now rewrite Hp. }
    destruct M as [M1 M2]. rewrite E0 in E1. rewrite M1 in E2. rewrite M2 in E3.
    assert (Hdt : period_ok rational (Some d : num exact)) by (split; [exact Rd|apply exact_le_some; lra]).
    destruct (pos_sat_any exact_laws l _ j (Some d) Hok E1 E2 E3 Hdt Nc) as (S1 & _ & S3 & S4).
    { rewrite <- E. discriminate. }
    fold (pos_sat_written l ops' j (Some d)) in *. rewrite <- E in S3, S4. rewrite Ev, Elo, Ehi in *.
    cbn [add mul exact lift2] in S3, S4.
    assert (Mp : p * v <= v * d) by (rewrite (Qmult_comm v d); apply Qmult_le_compat_r; auto).
    destruct (pos_sat_written l ops' j (Some d)) as [w|]; [|destruct S1 as [S1 _]; discriminate S1].
    exists w. split; [reflexivity|]. apply exact_le_some in S1. split; [exact S1|].
    destruct (Qlt_le_dec (y + v * d) lo) as [B|B].
    - right. assert (T : Some w = Some (y + v * d)) by (apply S3; [exact V|apply Qlt_bool_iff; exact B]). injection T as ->. lra.
    - left. apply exact_le_some. apply S4; [exact V|]. now apply exact_le_some. }
  induction before as [|[j' dt'] before IH] using rev_ind; intros j dt R F; apply Forall_app in F as [F0 F]; inversion F as [|? ? (Nc & P & G) _]; subst; cbn [fst snd] in *.
  - unfold enforced. cbn [map app]. rewrite app_nil_r. destruct (Once ops j dt x R Nc P G) as (w & W & W1 & W2).
    exists w. split; [exact W|]. split; [exact W1|]. change (inject_Z (Z.of_nat (S (length (@nil (joint exact * num exact)))))) with 1. lra.
  - destruct (IH j' dt') as (y & W & Y1 & Y2); auto.
    { destruct before; exact R. }
    unfold enforced in *. rewrite map_app. cbn [map fst snd]. rewrite app_assoc.
    destruct (Once ((ops ++ map (fun c => Enforce (fst c) (snd c)) before) ++ [Enforce j' dt']) j dt y) as (w & W' & W1 & W2); auto.
    { unfold pos_sat_reference. rewrite rev_app_distr. cbn [rev app]. rewrite rev_involutive, W.
      apply Forall_app in F0 as [_ F0]. inversion F0 as [|? ? (Nc' & _) _]. unfold numeric in Nc'. cbn [fst] in Nc'. now rewrite Nc'. }
    exists w. split; [exact W'|]. split; [exact W1|].
    rewrite app_length, Nat.add_1_r, Nat2Z.inj_succ. unfold Z.succ. rewrite inject_Z_plus. change (inject_Z 1) with 1.
    pose proof (Qmul_nonneg p v Pp Pv). destruct W2 as [W2|W2]; [left; auto|]. destruct Y2 as [Y2|Y2]; [left; lra|right; lra].
Qed.

(** ** Any arithmetic: one call never goes further out *)
Section Out.
Context {A : arith} {fin tame : num A -> Prop} (L : laws A fin tame).
Let tfin a : tame a -> fin a := tame_fin _ _ _ L a.
Let fnum a : fin a -> numeric a := fin_num _ _ _ L a.
Hint Resolve tfin fnum : core.

Lemma soft_sign (s : soft_limits A) vmax x b : tame (k_position s) -> le (zero A) (k_position s) -> fin vmax -> le (zero A) vmax ->
  tame x -> tame b ->
  (le b x -> le (soft_vel s vmax x b) (zero A)) /\ (le x b -> le (zero A) (soft_vel s vmax x b)).
Proof.
  intros Tk Pk Fv Pv Tx Tb. pose proof (k_num L _ _ _ Tk Tx Tb Pk) as N.
  pose proof (soft_vel_cases L s vmax x b N (fnum _ Fv) Pv) as C. cbv zeta in C.
  assert (Fo : fin (opp A (k_position s))) by (apply (opp_fin _ _ _ L); auto).
  assert (Fz : fin (zero A)) by (apply (zero_fin L)).
  pose proof (mul_zero_r _ _ _ L _ Fo) as [Z1 Z2].
  pose proof (sub_same _ _ _ L _ (tfin _ Tb)) as [Y1 Y2].
  split; intros H.
  - assert (M : le (mul A (opp A (k_position s)) (sub A x b)) (zero A)).
    { eapply (le_tr L); [|exact Z1]. apply (mul_ge _ _ _ L); auto.
      - apply (sub_tame _ _ _ L); auto.
      - apply (opp_nonpos L); auto.
      - eapply (le_tr L); [exact Y2|]. apply (sub_le_l _ _ _ L); auto. }
    destruct C as [->|[[-> _]|[-> E]]]; auto.
    + apply (opp_nonpos L); auto.
    + eapply (le_tr L); eauto.
  - assert (M : le (zero A) (mul A (opp A (k_position s)) (sub A x b))).
    { eapply (le_tr L); [exact Z2|]. apply (mul_ge _ _ _ L); auto.
      - apply (sub_tame _ _ _ L); auto.
      - apply (opp_nonpos L); auto.
      - eapply (le_tr L); [|exact Y1]. apply (sub_le_l _ _ _ L); auto. }
    destruct C as [->|[[-> E]|[-> _]]]; auto. eapply (le_tr L); eauto.
Qed.

Lemma pf_out l s ref c dt : soft_pos_limits_ok tame l -> soft_ok tame s -> le (soft_min s) (max_position l) -> tame ref -> fin dt ->
  lt (zero A) dt -> numeric c ->
  let b := pf_bounds l s ref dt in let w := saturate c (fst b) (snd b) in
  (le (soft_max s) ref -> le w ref) /\ (le ref (soft_min s) -> le ref w).
Proof.
  intros (Hp & Hv & Tl & Th & Hlh & (Tv & Pv)) (Ts1 & Ts2 & Hs & (Tk & Pk) & _) X Tr Fdt Pdt Nc.
  pose proof (lt_le L _ _ Pdt) as Pd.
  assert (Fz : fin (zero A)) by (apply (zero_fin L)).
  pose proof (soft_vel_bounded L s (max_velocity l) ref (soft_min s) Tk Tr Ts1 Pv) as Bl.
  pose proof (soft_vel_bounded L s (max_velocity l) ref (soft_max s) Tk Tr Ts2 Pv) as Bh.
  pose proof (soft_sign s (max_velocity l) ref (soft_min s) Tk Pk (tfin _ Tv) Pv Tr Ts1) as [_ Sl].
  pose proof (soft_sign s (max_velocity l) ref (soft_max s) Tk Pk (tfin _ Tv) Pv Tr Ts2) as [Sh Sh'].
  unfold pf_bounds. rewrite Hp. cbv zeta. cbn [fst snd].
  assert (Fl : fin (soft_vel s (max_velocity l) ref (soft_min s))) by (eapply (bounded_fin L); [|exact Bl]; auto).
  assert (Fh : fin (soft_vel s (max_velocity l) ref (soft_max s))) by (eapply (bounded_fin L); [|exact Bh]; auto).
  assert (Nl : numeric (add A ref (mul A (soft_vel s (max_velocity l) ref (soft_min s)) dt))) by (apply (add_num L); auto; apply (LimNear.mul_num L); auto).
  assert (Nh : numeric (add A ref (mul A (soft_vel s (max_velocity l) ref (soft_max s)) dt))) by (apply (add_num L); auto; apply (LimNear.mul_num L); auto).
  assert (N1 : numeric (fmax (add A ref (mul A (soft_vel s (max_velocity l) ref (soft_min s)) dt)) (min_position l))) by (apply fmax_num; auto).
  assert (N2 : numeric (fmin (add A ref (mul A (soft_vel s (max_velocity l) ref (soft_max s)) dt)) (max_position l))) by (apply fmin_num; auto).
  split; intros H.
  - eapply (le_tr L); [apply (sat_hi L); auto|]. eapply (le_tr L); [apply (fmin_l L); auto|].
    apply (le_tr L _ (add A ref (zero A))); [|apply (add_zero _ _ _ L); auto].
    apply (add_le _ _ _ L); auto.
    apply (le_tr L _ (mul A (zero A) dt)); [apply (mul_le _ _ _ L); auto|apply (mul_zero _ _ _ L); auto].
  - apply (sat_lo L); auto.
    + apply (le_tr L _ (add A ref (mul A (soft_vel s (max_velocity l) ref (soft_min s)) dt))); [|apply (fmax_l L); auto].
      apply (add_up L); auto. apply (mul_nonneg L); auto.
    + apply fmin_glb.
      * apply (add_up L); auto. apply (mul_nonneg L); auto. apply Sh'. eapply (le_tr L); eauto.
      * eapply (le_tr L); eauto.
Qed.

Lemma pos_soft_out l s ops j dt h h0 ref : pos_soft_make l s = Some h0 ->
  pos_soft_after h0 ops = Some h -> pos_soft_reference l s ops j = Some ref ->
  soft_pos_limits_ok tame l -> soft_ok tame s -> le (soft_min s) (max_position l) -> tame ref -> fin dt ->
  lt (zero A) dt -> numeric (j_cmd j) ->
  exists w, pos_soft_written l s ops j dt = Some w /\
    (le (soft_max s) ref -> le w ref) /\ (le ref (soft_min s) -> le ref w).
Proof.
  intros Hm Ha Hr Hl Hs X Tr Fdt Pdt Nc. unfold pos_soft_written. rewrite Hm, Ha.
  unfold pos_soft_make in Hm. destruct (has_velocity_limits l) eqn:V; [|discriminate]. injection Hm as <-.
  pose proof (pf_reference_eq L _ _ _ _ _ _ V Ha Hr (fnum _ (tfin _ Tr))) as E.
  destruct (pf_after_const _ _ _ Ha) as [E1 E2]. simpl in E1, E2.
  rewrite (pf_enforce_eq h j dt ref E Pdt). cbv zeta. cbn [option_map snd set_command j_cmd]. rewrite E1, E2.
  eexists. split; [reflexivity|]. apply (pf_out l s ref (j_cmd j) dt); auto.
Qed.
End Out.
