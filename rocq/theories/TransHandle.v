(** Handles and interfaces of transmissions: which outcomes are possible, what is
    written (TransModel.v, TransSpec.v). *)
From Coq Require Import Arith Lia.
From Verif Require Import TransModel TransSpec TransProofs SMapProofs.

Section Handles.
Context (A : darith).
Notation F := (num A).


Ltac lists := repeat match goal with
  | H : List.length ?l = 1%nat |- _ => destruct l as [|? [|? ?]]; try discriminate H; clear H
  | H : List.length ?l = 2%nat |- _ => destruct l as [|? [|? [|? ?]]]; try discriminate H; clear H
  end.
Ltac open_call := match goal with
  | |- exists m', ?f _ _ _ _ = _ => unfold f | |- exists m', ?f _ _ _ _ _ = _ => unfold f
  | |- exists m', ?f _ _ _ _ _ _ = _ => unfold f | |- exists m', ?f _ _ _ _ _ _ _ = _ => unfold f
  | |- exists m', ?f _ _ _ _ _ _ _ _ = _ => unfold f end.

Lemma a2j_total t q act jnt la lj m :
  doubling A -> params_ok A t -> no_underflow A t -> linked A t q act jnt la lj -> abs_ok A t q act ->
  exists m', to_joint A q t act jnt m = Ok m'.
Proof.
  intros HD HP HU (Ha & Hj & La & Lj) HX.
  destruct t as [r o | ar jr off ign | ar jr off]; cbn in La, Lj; lists;
    [ | (destruct HP as (u0 & u1 & w0 & w1 & z0 & z1 & -> & -> & -> & Z0 & Z1 & Z2 & Z3);
        pose proof (HD _ Z0); pose proof (HD _ Z1); pose proof (HD _ Z2); pose proof (HD _ Z3)) ..];
    try (cbn in HP); cbn in HU;
    destruct q; cbn in Ha, Hj; cbn -[Nat.eqb]; open_call;
    unfold checks2, check, load, store, at_, divide; rewrite ?Ha, ?Hj; try (destruct HX as (p & v & ->));
    try match type of HU with _ /\ _ => destruct HU as [HU HU'] end;
    cbn -[Nat.eqb]; repeat match goal with H : is_zero A ?x = false |- _ => rewrite H; cbn end; try destruct ign; cbn; eauto.
Qed.

Lemma j2a_total t q act jnt la lj m :
  doubling A -> params_ok A t -> no_underflow A t -> both_ways q -> linked A t q act jnt la lj ->
  exists m', to_actuator A q t jnt act m = Ok m'.
Proof.
  intros HD HP HU HB (Ha & Hj & La & Lj).
  destruct t as [r o | ar jr off ign | ar jr off]; cbn in La, Lj; lists;
    [ | (destruct HP as (u0 & u1 & w0 & w1 & z0 & z1 & -> & -> & -> & Z0 & Z1 & Z2 & Z3);
        pose proof (HD _ Z0); pose proof (HD _ Z1); pose proof (HD _ Z2); pose proof (HD _ Z3)) ..];
    try (cbn in HP); cbn in HU;
    destruct q; try (exfalso; destruct HB as [HB | [HB | HB]]; discriminate HB); cbn in Ha, Hj; cbn -[Nat.eqb]; open_call;
    unfold checks2, check, load, store, at_, divide; rewrite ?Ha, ?Hj;
    try match type of HU with _ /\ _ => destruct HU as [HU HU'] end;
    cbn -[Nat.eqb]; repeat match goal with H : is_zero A ?x = false |- _ => rewrite H; cbn end; cbn; eauto.
Qed.

Lemma a2j_wrong t q act jnt m :
  List.length (side q act) <> num_actuators A t \/ List.length (side q jnt) <> num_joints A t ->
  to_joint A q t act jnt m = Assertion.
Proof.
  intros H.
  assert (E : (List.length (side q act) =? num_actuators A t)%nat && (List.length (side q jnt) =? num_joints A t)%nat = false).
  { apply andb_false_iff. rewrite !Nat.eqb_neq. exact H. }
  destruct t, q; cbn [num_actuators num_joints side] in E; cbn [to_joint];
    unfold a2j_position, a2j_velocity, a2j_effort, a2j_absolute, a2j_torque;
    match goal with |- ?f _ _ _ _ = _ => unfold f | |- ?f _ _ _ _ _ = _ => unfold f | |- ?f _ _ _ _ _ _ = _ => unfold f
      | |- ?f _ _ _ _ _ _ _ = _ => unfold f  | |- ?f _ _ _ _ _ _ _ _ = _ => unfold f end;
    unfold checks2, check; rewrite E; reflexivity.
Qed.

Lemma j2a_wrong t q act jnt m :
  both_ways q ->
  List.length (side q act) <> num_actuators A t \/ List.length (side q jnt) <> num_joints A t ->
  to_actuator A q t jnt act m = Assertion.
Proof.
  intros HB H.
  assert (E : (List.length (side q act) =? num_actuators A t)%nat && (List.length (side q jnt) =? num_joints A t)%nat = false).
  { apply andb_false_iff. rewrite !Nat.eqb_neq. exact H. }
  destruct t, q; try (exfalso; destruct HB as [HB | [HB | HB]]; discriminate HB);
    cbn [num_actuators num_joints side] in E; cbn [to_actuator];
    unfold j2a_position, j2a_velocity, j2a_effort;
    match goal with |- ?f _ _ _ _ = _ => unfold f | |- ?f _ _ _ _ _ = _ => unfold f | |- ?f _ _ _ _ _ _ = _ => unfold f
      | |- ?f _ _ _ _ _ _ _ = _ => unfold f  | |- ?f _ _ _ _ _ _ _ _ = _ => unfold f end;
    unfold checks2, check; rewrite E; reflexivity.
Qed.

(** ** What the constructor of a handle guarantees *)

Lemma valid_ptrs v : valid_pointers v = true -> exists l, v = map Some l.
Proof.
  induction v as [|[a|] v IH]; cbn; intros H; try discriminate; [now exists []|].
  destruct (IH H) as (l & ->). now exists (a :: l).
Qed.

(** An empty vector, or one of the right size; no null pointers. *)
Definition good (n : nat) (v : vec) : Prop := exists l, v = map Some l /\ (l = [] \/ List.length l = n).

Lemma good_intro n v : negb (empty v) && negb (List.length v =? n)%nat = false -> valid_pointers v = true -> good n v.
Proof.
  intros H V. apply valid_ptrs in V as (l & ->). exists l. split; [reflexivity|].
  destruct l as [|a l]; [now left | right]. cbn [empty map] in H. rewrite andb_true_l in H.
  apply negb_false_iff, Nat.eqb_eq in H. rewrite <- H. cbn. now rewrite map_length.
Qed.

Lemma made_handle name tr act jnt h : make_handle A name tr act jnt = Some h ->
  tr = Some (h_trans A h) /\ h_name A h = name /\ h_act A h = act /\ h_jnt A h = jnt /\
  (forall q, q <> TorqueSensor -> good (num_actuators A (h_trans A h)) (side q act)) /\
  (exists l, side TorqueSensor act = map Some l) /\
  (forall q, good (num_joints A (h_trans A h)) (side q jnt)).
Proof.
  unfold make_handle. destruct tr as [t|]; [|discriminate].
  intros H. repeat match type of H with (if ?b then _ else _) = _ => destruct b eqn:?; [discriminate H|] end.
  injection H as <-. cbn [h_trans h_name h_act h_jnt].
  repeat match goal with E : negb (valid_pointers _) = false |- _ => apply negb_false_iff in E end.
  assert (K : forall v, negb (empty v) && negb (valid_pointers v) = false -> valid_pointers v = true).
  { intros [|p v]; cbn; auto. now destruct p; cbn; destruct (valid_pointers v). }
  repeat match goal with E : negb (empty ?v) && negb (valid_pointers ?v) = false |- _ => apply K in E end.
  repeat split; auto.
  - intros q Hq. destruct q; cbn [side]; try congruence; now apply good_intro.
  - now apply valid_ptrs.
  - intros q. destruct q; cbn [side]; now apply good_intro.
Qed.

(** ** Sequences of writers *)

(** A piece of code that always succeeds, writes only [T], and whose result there depends on [S] only. *)
Definition writer (S T : list addr) (f : mem A -> res (mem A)) : Prop :=
  (forall m, exists m', f m = Ok m' /\ unchanged_outside A T m m') /\
  (forall m1 m2 m1' m2', map m1 S = map m2 S -> f m1 = Ok m1' -> f m2 = Ok m2' -> map m1' T = map m2' T).

(** One after the other. *)
Fixpoint run_seq (fs : list (mem A -> res (mem A))) (m : mem A) : res (mem A) :=
  match fs with [] => Ok m | f :: fs' => m <- f m ;; run_seq fs' m end.

Lemma map_agree (l : list addr) (m m' : mem A) : (forall a, In a l -> m a = m' a) -> map m l = map m' l.
Proof. apply map_ext_in. Qed.
Lemma agree_map (l : list addr) (m m' : mem A) a : map m l = map m' l -> In a l -> m a = m' a.
Proof. induction l as [|b l IH]; cbn; intros H I; [tauto|]. injection H as H1 H2. destruct I as [->|I]; auto. Qed.

Lemma nodup_app_r {T} (l l' : list T) : NoDup (l ++ l') -> NoDup l'.
Proof. induction l as [|a l IH]; cbn; intros H; auto. inversion H; auto. Qed.
Lemma nodup_app_l {T} (l l' : list T) : NoDup (l ++ l') -> NoDup l.
Proof.
  induction l as [|a l IH]; cbn; intros H; constructor; inversion H; subst; auto.
  intros K. apply H2, in_or_app. now left.
Qed.
Lemma nodup_part {T} (g : T -> list addr) l x : NoDup (flat_map g l) -> In x l -> NoDup (g x).
Proof.
  induction l as [|y l IH]; cbn; intros H I; [tauto|]. destruct I as [->|I].
  - now apply nodup_app_l in H.
  - apply IH; auto. now apply nodup_app_r in H.
Qed.

Lemma seq_writers {T : Type} (S Tg : T -> list addr) (f : T -> mem A -> res (mem A)) (l : list T) :
  (forall x, In x l -> writer (S x) (Tg x) (f x)) ->
  NoDup (flat_map Tg l) -> disjoint (flat_map S l) (flat_map Tg l) ->
  forall m, exists m', run_seq (map f l) m = Ok m' /\ unchanged_outside A (flat_map Tg l) m m' /\
    forall x m1, In x l -> f x m = Ok m1 -> map m' (Tg x) = map m1 (Tg x).
Proof.
  induction l as [|x l IH]; intros HW ND DJ m.
  { exists m. split; [reflexivity|]. split; [intros c _; reflexivity | intros y m1 []]. }
  cbn [flat_map] in ND, DJ. cbn [map run_seq flat_map].
  destruct (proj1 (HW x (or_introl eq_refl)) m) as (m1 & E1 & U1).
  destruct (IH (fun y Hy => HW y (or_intror Hy)) (nodup_app_r _ _ ND)) with (m := m1) as (m' & E' & U' & V').
  { intros a Ha Ha'. apply (DJ a); apply in_or_app; now right. }
  exists m'. rewrite E1. cbn [bind]. split; [exact E'|]. split.
  - intros c Hc. rewrite U' by (intros K; apply Hc, in_or_app; now right).
    apply U1. intros K. apply Hc, in_or_app. now left.
  - intros y m2 [->|Hy] E2.
    + rewrite E1 in E2. injection E2 as <-. apply map_agree. intros a Ha. apply U'. intros K.
      clear - ND Ha K. induction (Tg y) as [|b t IHt]; [destruct Ha|]. cbn in ND. inversion ND; subst.
      destruct Ha as [->|Ha]; [apply H1, in_or_app; now right | now apply IHt].
    + destruct (proj1 (HW y (or_intror Hy)) m1) as (m3 & E3 & _).
      rewrite (V' y m3 Hy E3).
      apply (proj2 (HW y (or_intror Hy)) m1 m); auto.
      apply map_agree. intros a Ha. apply U1. intros K. apply (DJ a).
      * apply in_or_app. right. apply in_flat_map. now exists y.
      * apply in_or_app. now left.
Qed.

Lemma seq_writer {T : Type} (S Tg : T -> list addr) (f : T -> mem A -> res (mem A)) (l : list T) :
  (forall x, In x l -> writer (S x) (Tg x) (f x)) ->
  NoDup (flat_map Tg l) -> disjoint (flat_map S l) (flat_map Tg l) ->
  writer (flat_map S l) (flat_map Tg l) (run_seq (map f l)).
Proof.
  intros HW ND DJ. split.
  - intros m. destruct (seq_writers S Tg f l HW ND DJ m) as (m' & E & U & _). eauto.
  - intros m1 m2 m1' m2' EQ E1 E2.
    destruct (seq_writers S Tg f l HW ND DJ m1) as (n1 & F1 & _ & V1).
    destruct (seq_writers S Tg f l HW ND DJ m2) as (n2 & F2 & _ & V2).
    rewrite E1 in F1. injection F1 as <-. rewrite E2 in F2. injection F2 as <-.
    apply map_agree. intros a Ha. apply in_flat_map in Ha as (x & Hx & Ha).
    destruct (proj1 (HW x Hx) m1) as (k1 & K1 & _). destruct (proj1 (HW x Hx) m2) as (k2 & K2 & _).
    rewrite (agree_map _ _ _ a (V1 x k1 Hx K1) Ha), (agree_map _ _ _ a (V2 x k2 Hx K2) Ha).
    refine (agree_map (Tg x) k1 k2 a _ Ha). apply (proj2 (HW x Hx) m1 m2); auto.
    apply map_agree. intros b Hb. apply (agree_map _ _ _ b EQ), in_flat_map. eauto.
Qed.

(** ** Maps and handles as writers *)

Lemma pure_a2j_len t q l l' : pure_a2j A t q l = Ok l' -> List.length l' = num_joints A t.
Proof.
  unfold pure_a2j, divide, bind; intros H.
  repeat match type of H with match ?x with _ => _ end = _ => destruct x; try discriminate H end;
  injection H as <-; reflexivity.
Qed.
Lemma pure_j2a_len t q l l' : pure_j2a A t q l = Ok l' -> List.length l' = num_actuators A t.
Proof.
  unfold pure_j2a, divide, bind; intros H.
  repeat match type of H with match ?x with _ => _ end = _ => destruct x; try discriminate H end;
  injection H as <-; reflexivity.
Qed.

Lemma a2j_writer t q act jnt la lj :
  doubling A -> params_ok A t -> no_underflow A t -> linked A t q act jnt la lj -> abs_ok A t q act ->
  NoDup lj -> disjoint la lj -> writer la lj (to_joint A q t act jnt).
Proof.
  intros HD HP HU HL HX ND DJ.
  assert (W : forall m, exists l, pure_a2j A t q (map m la) = Ok l /\ to_joint A q t act jnt m = Ok (write A m lj l)).
  { intros m. destruct (a2j_total t q act jnt la lj m HD HP HU HL HX) as (m' & E).
    rewrite (a2j_eval A t q act jnt la lj m HP HL ND DJ HX) in E |- *.
    destruct (pure_a2j A t q (map m la)) as [l| | |]; try discriminate E. exists l. auto. }
  split.
  - intros m. destruct (W m) as (l & _ & E). exists (write A m lj l). split; [exact E|].
    intros c Hc. now apply write_out.
  - intros m1 m2 m1' m2' EQ E1 E2. destruct (W m1) as (l1 & P1 & F1), (W m2) as (l2 & P2 & F2).
    rewrite F1 in E1. rewrite F2 in E2. injection E1 as <-. injection E2 as <-. rewrite EQ in P1.
    assert (l1 = l2) by congruence. subst.
    pose proof (pure_a2j_len _ _ _ _ P2). destruct HL as (_ & _ & _ & HL).
    rewrite !write_in by (auto; congruence). reflexivity.
Qed.

Lemma j2a_writer t q act jnt la lj :
  doubling A -> params_ok A t -> no_underflow A t -> linked A t q act jnt la lj -> both_ways q ->
  NoDup la -> disjoint lj la -> writer lj la (to_actuator A q t jnt act).
Proof.
  intros HD HP HU HL HX ND DJ.
  assert (W : forall m, exists l, pure_j2a A t q (map m lj) = Ok l /\ to_actuator A q t jnt act m = Ok (write A m la l)).
  { intros m. destruct (j2a_total t q act jnt la lj m HD HP HU HX HL) as (m' & E).
    rewrite (j2a_eval A t q act jnt la lj m HP HX HL ND DJ) in E |- *.
    destruct (pure_j2a A t q (map m lj)) as [l| | |]; try discriminate E. exists l. auto. }
  split.
  - intros m. destruct (W m) as (l & _ & E). exists (write A m la l). split; [exact E|].
    intros c Hc. now apply write_out.
  - intros m1 m2 m1' m2' EQ E1 E2. destruct (W m1) as (l1 & P1 & F1), (W m2) as (l2 & P2 & F2).
    rewrite F1 in E1. rewrite F2 in E2. injection E1 as <-. injection E2 as <-. rewrite EQ in P1.
    assert (l1 = l2) by congruence. subst.
    pose proof (pure_j2a_len _ _ _ _ P2). destruct HL as (_ & _ & HL & _).
    rewrite !write_in by (auto; congruence). reflexivity.
Qed.

(** [propagate] runs the maps of its kind in order. *)
Lemma propagate_seq k h m : propagate A k h m = run_seq (map (single_map A k h) (quantities A k h)) m.
Proof.
  destruct h as [n t act jnt].
  destruct k; cbn [propagate quantities h_act h_jnt h_trans map run_seq app].
  1:{ unfold has_absolute, has_torque. rewrite !andb_true_r.
      destruct (empty (d_absolute_position act)), (empty (d_torque_sensor act));
      cbn [app map run_seq negb single_map toward_joints to_joint h_trans h_act h_jnt];
      unfold single_map; cbn [toward_joints to_joint h_trans h_act h_jnt];
      destruct (a2j_position A t act jnt m) as [m1| | |]; cbn [bind]; try reflexivity;
      destruct (a2j_velocity A t act jnt m1) as [m2| | |]; cbn [bind]; try reflexivity;
      destruct (a2j_effort A t act jnt m2) as [m3| | |]; cbn [bind]; try reflexivity;
      try (destruct (a2j_absolute A t act jnt m3) as [m4| | |]; cbn [bind]; try reflexivity);
      match goal with |- ?x = _ => destruct x; reflexivity end. }
  all: unfold single_map; cbn [toward_joints to_joint to_actuator h_trans h_act h_jnt].
  4: { destruct (j2a_position A t jnt act m) as [m1| | |]; cbn [bind]; try reflexivity;
      destruct (j2a_velocity A t jnt act m1) as [m2| | |]; cbn [bind]; try reflexivity;
      match goal with |- ?x = _ => destruct x; reflexivity end. }
  all: match goal with |- ?x = _ => destruct x; reflexivity end.
Qed.

Lemma addrs_some l : addrs (map Some l) = l.
Proof. induction l as [|a l IH]; [reflexivity|]. change (a :: addrs (map Some l) = a :: l). now rewrite IH. Qed.

Lemma quantities_back k h q : toward_joints k = false -> In q (quantities A k h) -> both_ways q.
Proof. destruct k; cbn; try discriminate; intros _; unfold both_ways; intuition auto. Qed.

(** A handle that was made and has what it needs is linked for each of its maps. *)
Lemma needed_linked name tr act jnt h k q :
  make_handle A name tr act jnt = Some h -> needed A k h -> In q (quantities A k h) ->
  linked A (h_trans A h) q (h_act A h) (h_jnt A h) (addrs (side q (h_act A h))) (addrs (side q (h_jnt A h))).
Proof.
  intros H [HN HT] Hq. apply made_handle in H as (_ & _ & EA & EJ & HA & (lt & ET) & HJ). rewrite EA, EJ in *.
  pose proof (HN q Hq) as [NA NJ]. destruct (HJ q) as (lj & Ej & Lj). rewrite Ej in NJ |- *.
  assert (exists la, side q act = map Some la /\ List.length la = num_actuators A (h_trans A h)) as (la & Ea & La).
  { assert (HQ : q = TorqueSensor \/ q <> TorqueSensor) by (destruct q; auto; right; discriminate).
    destruct HQ as [->|HQ].
    - exists lt. split; [exact ET|]. rewrite <- (HT Hq), <- (map_length Some lt), <- ET. reflexivity.
    - destruct (HA q HQ) as (la & Ea & [->|La]); [now rewrite Ea in NA | eauto]. }
  rewrite Ea, !addrs_some. repeat split; auto.
  destruct Lj as [->|Lj]; [now cbn in NJ | exact Lj].
Qed.

Lemma position_needed k h q : toward_joints k = true -> In q (quantities A k h) ->
  q = AbsolutePosition -> In Position (quantities A k h).
Proof. intros Hk Hq ->. destruct k; cbn in *; try discriminate; intuition discriminate. Qed.

Lemma needed_abs name tr act jnt h k q :
  make_handle A name tr act jnt = Some h -> needed A k h -> toward_joints k = true -> In q (quantities A k h) ->
  abs_ok A (h_trans A h) q (h_act A h).
Proof.
  intros H HN Hk Hq. unfold abs_ok. destruct (h_trans A h) eqn:E; auto. destruct q; auto.
  pose proof (needed_linked _ _ _ _ _ _ _ H HN (position_needed k h _ Hk Hq eq_refl)) as (Ha & _ & La & _).
  cbn [side] in Ha, La. rewrite E in La. rewrite Ha. cbn [side].
  destruct (addrs (d_position (h_act A h))) as [|p v]; [discriminate La | now exists p, (map Some v)].
Qed.

(** A map of such a handle as a writer. *)
Lemma single_writer name tr act jnt h k q :
  doubling A -> params_ok A (h_trans A h) -> no_underflow A (h_trans A h) ->
  make_handle A name tr act jnt = Some h -> needed A k h -> In q (quantities A k h) ->
  NoDup (addrs (side q (target_data A k h))) ->
  disjoint (addrs (side q (source_data A k h))) (addrs (side q (target_data A k h))) ->
  writer (addrs (side q (source_data A k h))) (addrs (side q (target_data A k h))) (single_map A k h q).
Proof.
  intros HD HP HU HM HN Hq. pose proof (needed_linked _ _ _ _ _ _ _ HM HN Hq) as HL.
  unfold source_data, target_data, single_map. destruct (toward_joints k) eqn:E; intros ND DJ.
  - eapply a2j_writer; eauto. eapply needed_abs; eauto.
  - eapply j2a_writer; eauto. eapply quantities_back; eauto.
Qed.

Lemma separate_parts k h q : separate A k h -> In q (quantities A k h) ->
  NoDup (addrs (side q (target_data A k h))) /\
  disjoint (addrs (side q (source_data A k h))) (addrs (side q (target_data A k h))).
Proof.
  intros [ND DJ] Hq. split; [exact (nodup_part _ _ _ ND Hq)|].
  intros a Ha Ht. apply (DJ a); apply in_flat_map; eauto.
Qed.

Lemma handle_writer name tr act jnt h k :
  doubling A -> params_ok A (h_trans A h) -> no_underflow A (h_trans A h) ->
  make_handle A name tr act jnt = Some h -> needed A k h -> separate A k h ->
  writer (sources A k h) (targets A k h) (propagate A k h) /\
  forall m m' q m1, propagate A k h m = Ok m' -> In q (quantities A k h) -> single_map A k h q m = Ok m1 ->
    map m' (addrs (side q (target_data A k h))) = map m1 (addrs (side q (target_data A k h))).
Proof.
  intros HD HP HU HM HN HS.
  assert (HW : forall q, In q (quantities A k h) ->
    writer (addrs (side q (source_data A k h))) (addrs (side q (target_data A k h))) (single_map A k h q)).
  { intros q Hq. destruct (separate_parts k h q HS Hq). eapply single_writer; eauto. }
  destruct HS as [ND DJ]. split.
  - pose proof (seq_writer _ _ _ _ HW ND DJ) as [W1 W2]. split.
    + intros m. rewrite propagate_seq. apply W1.
    + intros m1 m2 m1' m2'. rewrite !propagate_seq. apply W2.
  - intros m m' q m1 E Hq E1. rewrite propagate_seq in E.
    destruct (seq_writers _ _ _ _ HW ND DJ m) as (n & En & _ & V).
    unfold target_data in *. rewrite E in En. injection En as <-. exact (V q m1 Hq E1).
Qed.

(** ** Outcomes of [propagate], with aliasing allowed *)

Lemma single_total name tr act jnt h k q m :
  doubling A -> params_ok A (h_trans A h) -> no_underflow A (h_trans A h) ->
  make_handle A name tr act jnt = Some h -> needed A k h -> In q (quantities A k h) ->
  exists m', single_map A k h q m = Ok m'.
Proof.
  intros HD HP HU HM HN Hq. pose proof (needed_linked _ _ _ _ _ _ _ HM HN Hq) as HL.
  unfold single_map. destruct (toward_joints k) eqn:E.
  - eapply a2j_total; eauto. eapply needed_abs; eauto.
  - eapply j2a_total; eauto. eapply quantities_back; eauto.
Qed.

Lemma run_seq_total {T} (f : T -> mem A -> res (mem A)) l :
  (forall x m, In x l -> exists m', f x m = Ok m') -> forall m, exists m', run_seq (map f l) m = Ok m'.
Proof.
  induction l as [|x l IH]; intros H m; cbn; eauto.
  destruct (H x m (or_introl eq_refl)) as (m' & ->). cbn. apply IH. intros y n Hy. apply H. now right.
Qed.

Lemma propagate_total name tr act jnt h k m :
  doubling A -> params_ok A (h_trans A h) -> no_underflow A (h_trans A h) ->
  make_handle A name tr act jnt = Some h -> needed A k h -> exists m', propagate A k h m = Ok m'.
Proof.
  intros HD HP HU HM HN. rewrite propagate_seq. apply run_seq_total.
  intros q n Hq. eapply single_total; eauto.
Qed.

(** One map of a made handle succeeds, or fails its first assertion, because a vector is missing
    or there is a wrong number of torque sensors. *)
Definition has_q (h : handle A) (q : quantity) : Prop :=
  side q (h_act A h) <> [] /\ side q (h_jnt A h) <> [] /\
  (q = TorqueSensor -> List.length (d_torque_sensor (h_act A h)) = num_actuators A (h_trans A h)).

Lemma has_q_dec h q : has_q h q \/ ~ has_q h q.
Proof.
  unfold has_q.
  assert (forall v : vec, v <> [] \/ ~ v <> []) as D by (intros [|a v]; [right | left]; congruence).
  destruct (D (side q (h_act A h))); [|now right].
  destruct (D (side q (h_jnt A h))); [|now right].
  destruct (Nat.eq_dec (List.length (d_torque_sensor (h_act A h))) (num_actuators A (h_trans A h))); [left; auto|].
  destruct q; try (left; repeat split; auto; discriminate). right. intros (_ & _ & K). now apply n, K.
Qed.

Lemma positive t : num_actuators A t <> 0%nat /\ num_joints A t <> 0%nat.
Proof. destruct t; cbn; split; discriminate. Qed.

Lemma has_q_linked name tr act jnt h q :
  make_handle A name tr act jnt = Some h ->
  (has_q h q <-> List.length (side q (h_act A h)) = num_actuators A (h_trans A h) /\
                 List.length (side q (h_jnt A h)) = num_joints A (h_trans A h)).
Proof.
  intros H. destruct (positive (h_trans A h)) as [PA PJ].
  apply made_handle in H as (_ & _ & EA & EJ & HA & (lt & ET) & HJ).
  unfold has_q. rewrite EA, EJ. destruct (HJ q) as (lj & -> & Lj). rewrite map_length.
  assert (HQ : q = TorqueSensor \/ q <> TorqueSensor) by (destruct q; auto; right; discriminate).
  destruct HQ as [->|HQ].
  - split.
    + intros (N1 & N2 & N3). split; [exact (N3 eq_refl)|]. destruct Lj as [->|Lj]; [now cbn in N2 | exact Lj].
    + intros (N1 & N2). repeat split; auto.
      * intros K. cbn [side] in K, N1. rewrite K in N1. cbn in N1. congruence.
      * intros K. destruct lj; [cbn in N2; congruence | discriminate K].
  - destruct (HA q HQ) as (la & -> & La). rewrite map_length. split.
    + intros (N1 & N2 & _). split.
      * destruct La as [->|La]; [now cbn in N1 | exact La].
      * destruct Lj as [->|Lj]; [now cbn in N2 | exact Lj].
    + intros (N1 & N2). repeat split; [| |congruence].
      * intros K. destruct la; [cbn in N1; congruence | discriminate K].
      * intros K. destruct lj; [cbn in N2; congruence | discriminate K].
Qed.

Lemma single_missing name tr act jnt h k q m :
  make_handle A name tr act jnt = Some h -> In q (quantities A k h) -> ~ has_q h q ->
  single_map A k h q m = Assertion.
Proof.
  intros HM Hq HN. rewrite (has_q_linked _ _ _ _ _ _ HM) in HN.
  assert (D : List.length (side q (h_act A h)) <> num_actuators A (h_trans A h) \/
              List.length (side q (h_jnt A h)) <> num_joints A (h_trans A h)).
  { destruct (Nat.eq_dec (List.length (side q (h_act A h))) (num_actuators A (h_trans A h))); [right; tauto | now left]. }
  unfold single_map. destruct (toward_joints k) eqn:E; [now apply a2j_wrong|].
  apply j2a_wrong; auto. eapply quantities_back; eauto.
Qed.

Lemma needed_iff k h : needed A k h <-> forall q, In q (quantities A k h) -> has_q h q.
Proof.
  unfold needed, has_q. split.
  - intros [H1 H2] q Hq. destruct (H1 q Hq). repeat split; auto. intros ->. auto.
  - intros H. split; [intros q Hq; destruct (H q Hq) as (? & ? & _); auto|].
    intros Hq. apply (H _ Hq). reflexivity.
Qed.

Lemma single_total' name tr act jnt h k q m :
  doubling A -> params_ok A (h_trans A h) -> no_underflow A (h_trans A h) ->
  make_handle A name tr act jnt = Some h -> In q (quantities A k h) -> has_q h q ->
  (q = AbsolutePosition -> has_q h Position) ->
  exists m', single_map A k h q m = Ok m'.
Proof.
  intros HD HP HU HM Hq HQ HX.
  assert (L : forall q, has_q h q -> linked A (h_trans A h) q (h_act A h) (h_jnt A h)
                (addrs (side q (h_act A h))) (addrs (side q (h_jnt A h)))).
  { intros q' Hq'. apply (has_q_linked _ _ _ _ _ _ HM) in Hq' as [N1 N2].
    apply made_handle in HM as (_ & _ & EA & EJ & HA & (lt & ET) & HJ).
    rewrite EA, EJ in *. unfold linked. destruct (HJ q') as (lj & E2 & _). rewrite E2 in N2 |- *.
    assert (exists la, side q' act = map Some la) as (la & E1).
    { assert (HQ' : q' = TorqueSensor \/ q' <> TorqueSensor) by (destruct q'; auto; right; discriminate).
      destruct HQ' as [->|HQ']; [now exists lt|]. destruct (HA q' HQ') as (la & E1 & _). now exists la. }
    rewrite E1 in N1 |- *. rewrite map_length in N1, N2. rewrite !addrs_some. auto. }
  unfold single_map. destruct (toward_joints k) eqn:E.
  - eapply a2j_total; eauto. unfold abs_ok. destruct (h_trans A h) eqn:ET; auto. destruct q; auto.
    destruct (L _ (HX eq_refl)) as (E1 & _ & E2 & _). cbn [side num_actuators] in E1, E2.
    rewrite E1. destruct (addrs (d_position (h_act A h))) as [|p v]; [discriminate E2 | now exists p, (map Some v)].
  - eapply j2a_total; eauto. eapply quantities_back; eauto.
Qed.

Lemma seq_assertion {T} (f : T -> mem A -> res (mem A)) (P : T -> Prop) l :
  (forall x, P x \/ ~ P x) ->
  (forall l1 x l2 m, l = l1 ++ x :: l2 -> Forall P l1 -> P x -> exists m', f x m = Ok m') ->
  (forall x m, In x l -> ~ P x -> f x m = Assertion) ->
  ~ Forall P l -> forall m, run_seq (map f l) m = Assertion.
Proof.
  intros D. revert f. induction l as [|x l IH]; intros f H1 H2 HN m; [exfalso; apply HN; constructor|].
  cbn. destruct (D x) as [Px|Px].
  - destruct (H1 [] x l m eq_refl (Forall_nil _) Px) as (m' & ->). cbn. apply IH.
    + intros l1 y l2 n -> HF Hy. apply (H1 (x :: l1) y l2 n); auto.
    + intros y n Hy. apply H2. now right.
    + intros K. apply HN. now constructor.
  - rewrite H2; [reflexivity | now left | exact Px].
Qed.

Lemma propagate_missing name tr act jnt h k m :
  doubling A -> params_ok A (h_trans A h) -> no_underflow A (h_trans A h) ->
  make_handle A name tr act jnt = Some h -> ~ needed A k h -> propagate A k h m = Assertion.
Proof.
  intros HD HP HU HM HN. rewrite propagate_seq. apply (seq_assertion _ (has_q h)).
  - intros q. apply has_q_dec.
  - intros l1 q l2 n El HF Hq. eapply single_total'; eauto.
    + rewrite El. apply in_or_app. right. now left.
    + intros ->. assert (In Position l1); [|rewrite Forall_forall in HF; auto].
      assert (K : In AbsolutePosition (quantities A k h)) by (rewrite El; apply in_or_app; right; now left).
      destruct k; try (cbn in K; intuition discriminate).
      cbn in El. destruct l1 as [|a l1]; [discriminate El|]. injection El as <- _. now left.
  - intros q n Hq. eapply single_missing; eauto.
  - intros HF. apply HN, needed_iff. now apply Forall_forall.
Qed.

(** ** The interface *)

Lemma propagate_all_seq k i m : propagate_all A k i m = run_seq (map (propagate A k) (map snd i)) m.
Proof.
  revert m. induction i as [|[n h] i IH]; intros m; cbn; [reflexivity|].
  destruct (propagate A k h m); cbn; auto.
Qed.

Lemma flat_map_part {T U} (g : T -> list U) l x : In x l -> incl (g x) (flat_map g l).
Proof. intros Hx a Ha. apply in_flat_map. eauto. Qed.

Lemma all_separate_one k hs h : all_separate A k hs -> In h hs -> separate A k h.
Proof.
  intros [ND DJ] Hh. split; [exact (nodup_part _ _ _ ND Hh)|].
  intros a Ha Ht. apply (DJ a); eapply flat_map_part; eauto.
Qed.

Lemma interface_writer k i m :
  doubling A ->
  (forall h, In h (map snd i) -> params_ok A (h_trans A h) /\ no_underflow A (h_trans A h) /\
     (exists name tr act jnt, make_handle A name tr act jnt = Some h) /\ needed A k h) ->
  all_separate A k (map snd i) ->
  exists m', propagate_all A k i m = Ok m' /\
    unchanged_outside A (flat_map (targets A k) (map snd i)) m m' /\
    forall h m1, In h (map snd i) -> propagate A k h m = Ok m1 -> map m' (targets A k h) = map m1 (targets A k h).
Proof.
  intros HD HH HS. rewrite propagate_all_seq. apply seq_writers with (S := sources A k).
  - intros h Hh. destruct (HH h Hh) as (HP & HU & (name & tr & act & jnt & HM) & HN).
    eapply handle_writer; eauto. eapply all_separate_one; eauto.
  - exact (proj1 HS).
  - exact (proj2 HS).
Qed.

End Handles.

(** ** Outcomes of the maps for arbitrary data *)
Section Outcomes.
Context (A : darith).

Ltac cases HU := unfold checks2, check, check_ptrs, load, store, at_, divide; cbn -[Nat.eqb];
  repeat (match goal with
    | |- context [(?a =? ?b)%nat] => let E := fresh "E" in destruct (a =? b)%nat eqn:E; cbn -[Nat.eqb];
        [apply Nat.eqb_eq in E | clear E; try discriminate]
    end); try discriminate;
  repeat match goal with
    | H : List.length ?l = 1%nat |- _ => destruct l as [|? [|? ?]]; try discriminate H; clear H; cbn
    | H : List.length ?l = 2%nat |- _ => destruct l as [|? [|? [|? ?]]]; try discriminate H; clear H; cbn
    end;
  try match type of HU with _ /\ _ => destruct HU as [HU HU'] end;
  repeat (match goal with
    | |- context [match ?p with Some _ => _ | None => _ end] => destruct p; cbn; try discriminate
    | H : is_zero A ?x = false |- _ => rewrite H; cbn
    end); try discriminate.

Lemma a2j_outcome t q act jnt m : doubling A -> params_ok A t -> no_underflow A t ->
  to_joint A q t act jnt m <> DivZero /\
  (to_joint A q t act jnt m = Invalid -> q = AbsolutePosition /\ exists ar jr off ign, t = Differential A ar jr off ign).
Proof.
  intros HD HP HU.
  destruct t as [r o | ar jr off ign | ar jr off];
    [ | (destruct HP as (u0 & u1 & w0 & w1 & z0 & z1 & -> & -> & -> & Z0 & Z1 & Z2 & Z3);
        pose proof (HD _ Z0); pose proof (HD _ Z1); pose proof (HD _ Z2); pose proof (HD _ Z3)) ..];
    try (cbn in HP); cbn in HU;
    (destruct q; (split; [ | try (intros _; split; [reflexivity|]; repeat eexists; fail)]));
    cbn [to_joint]; unfold a2j_position, a2j_velocity, a2j_effort, a2j_absolute, a2j_torque;
    unfold simple_a2j_position, simple_a2j_velocity, simple_a2j_effort, simple_a2j_absolute, simple_a2j_torque,
      diff_a2j_position, diff_a2j_velocity, diff_a2j_effort, diff_a2j_absolute, diff_a2j_torque,
      four_a2j_position, four_a2j_velocity, four_a2j_effort, four_a2j_absolute, four_a2j_torque;
    try destruct ign; cases HU.
Qed.

Lemma j2a_outcome t q act jnt m : doubling A -> params_ok A t -> no_underflow A t -> both_ways q ->
  (exists m', to_actuator A q t jnt act m = Ok m') \/ to_actuator A q t jnt act m = Assertion.
Proof.
  intros HD HP HU HB.
  assert (K : to_actuator A q t jnt act m <> DivZero /\ to_actuator A q t jnt act m <> Invalid).
  2: { destruct (to_actuator A q t jnt act m); eauto; tauto. }
  destruct t as [r o | ar jr off ign | ar jr off];
    [ | (destruct HP as (u0 & u1 & w0 & w1 & z0 & z1 & -> & -> & -> & Z0 & Z1 & Z2 & Z3);
        pose proof (HD _ Z0); pose proof (HD _ Z1); pose proof (HD _ Z2); pose proof (HD _ Z3)) ..];
    try (cbn in HP); cbn in HU;
    (destruct q; try (exfalso; destruct HB as [HB | [HB | HB]]; discriminate HB); split);
    cbn [to_actuator]; unfold j2a_position, j2a_velocity, j2a_effort;
    unfold simple_j2a_position, simple_j2a_velocity, simple_j2a_effort,
      diff_j2a_position, diff_j2a_velocity, diff_j2a_effort,
      four_j2a_position, four_j2a_velocity, four_j2a_effort;
    cases HU.
Qed.

(** A map depends only on its own vectors. *)
Lemma a2j_own t q act jnt act' jnt' m :
  side q act = side q act' -> side q jnt = side q jnt' ->
  (q = AbsolutePosition -> forall ar jr off ign, t <> Differential A ar jr off ign) ->
  to_joint A q t act jnt m = to_joint A q t act' jnt' m.
Proof.
  intros E1 E2 HX. destruct t, q; try (exfalso; eapply HX; reflexivity); cbn [side] in E1, E2;
    cbn [to_joint]; unfold a2j_position, a2j_velocity, a2j_effort, a2j_absolute, a2j_torque;
    unfold simple_a2j_position, simple_a2j_velocity, simple_a2j_effort, simple_a2j_absolute, simple_a2j_torque,
      diff_a2j_position, diff_a2j_velocity, diff_a2j_effort, diff_a2j_absolute, diff_a2j_torque,
      four_a2j_position, four_a2j_velocity, four_a2j_effort, four_a2j_absolute, four_a2j_torque;
    rewrite E1, E2; reflexivity.
Qed.

Lemma j2a_own t q act jnt act' jnt' m :
  side q act = side q act' -> side q jnt = side q jnt' -> both_ways q ->
  to_actuator A q t jnt act m = to_actuator A q t jnt' act' m.
Proof.
  intros E1 E2 HB. destruct t, q; try (exfalso; destruct HB as [HB | [HB | HB]]; discriminate HB); cbn [side] in E1, E2;
    cbn [to_actuator]; unfold j2a_position, j2a_velocity, j2a_effort;
    unfold simple_j2a_position, simple_j2a_velocity, simple_j2a_effort,
      diff_j2a_position, diff_j2a_velocity, diff_j2a_effort,
      four_j2a_position, four_j2a_velocity, four_j2a_effort;
    rewrite E1, E2; reflexivity.
Qed.

(** ** What the constructors accept *)

Lemma make_simple_iff r o : make_simple A r o <> None <-> is_zero A r = false.
Proof. unfold make_simple. destruct (is_zero A r); split; congruence. Qed.

Lemma two_each_iff ar jr off : two_each A ar jr off <->
  negb (List.length ar =? 2)%nat || negb (List.length jr =? 2)%nat || negb (List.length off =? 2)%nat = false /\
  zero_reduction A ar jr = false.
Proof.
  unfold two_each. split.
  - intros (H1 & H2 & H3 & H). rewrite H1, H2, H3. split; [reflexivity|]. clear H3.
    destruct ar as [|a0 [|a1 [|? ?]]]; try discriminate H1. destruct jr as [|j0 [|j1 [|? ?]]]; try discriminate H2.
    cbn in H. repeat match goal with H : Forall _ (_ :: _) |- _ => inversion H; subst; clear H end.
    cbn. repeat match goal with H : is_zero A ?x = false |- _ => rewrite H; clear H end. reflexivity.
  - intros [HL HZ]. destruct (two_params A ar jr off HL HZ) as (a0 & a1 & j0 & j1 & o0 & o1 & -> & -> & -> & Z).
    repeat split. cbn. repeat constructor; tauto.
Qed.

Lemma make_differential_iff ar jr off ign : make_differential A ar jr off ign <> None <-> two_each A ar jr off.
Proof.
  rewrite two_each_iff. unfold make_differential.
  destruct (negb _ || _ || _); [split; [congruence|intuition discriminate]|].
  destruct (zero_reduction A ar jr); split; intuition congruence.
Qed.

Lemma make_four_bar_iff ar jr off : make_four_bar A ar jr off <> None <-> two_each A ar jr off.
Proof.
  rewrite two_each_iff. unfold make_four_bar.
  destruct (negb _ || _ || _); [split; [congruence|intuition discriminate]|].
  destruct (zero_reduction A ar jr); split; intuition congruence.
Qed.

End Outcomes.

Lemma propagate_frame A name tr act jnt h k m :
  doubling A -> make_handle A name tr act jnt = Some h ->
  constructed A (h_trans A h) -> no_underflow A (h_trans A h) -> needed A k h -> separate A k h ->
  exists m', propagate A k h m = Ok m' /\ unchanged_outside A (targets A k h) m m' /\
    (forall q m1, In q (quantities A k h) -> single_map A k h q m = Ok m1 ->
       map m' (addrs (side q (target_data A k h))) = map m1 (addrs (side q (target_data A k h)))) /\
    (forall n, map n (sources A k h) = map m (sources A k h) ->
       exists n', propagate A k h n = Ok n' /\ map n' (targets A k h) = map m' (targets A k h)).
Proof.
  intros HD HM HC HU HN HS. apply constructed_params in HC.
  destruct (handle_writer A name tr act jnt h k HD HC HU HM HN HS) as [[W1 W2] V].
  destruct (W1 m) as (m' & E & U). exists m'. repeat split; auto.
  - intros q m1 Hq E1. exact (V m m' q m1 E Hq E1).
  - intros n En. destruct (W1 n) as (n' & E' & _). exists n'. split; auto. eapply W2; eauto.
Qed.
