(** The limits hold at the actuators: a robot that reads, limits and writes as documented. *)
From Coq Require Import List String QArith Lqa.
From Verif Require Import LimModel LimLaws LimSpec LimExact LimProofs LimGain TransModel TransSpec TransProofs PropsTrans
  LoopModel LoopSpec LoopProofs LoopLimits.
Import ListNotations.
Local Open Scope string_scope.
Local Open Scope nat_scope.

(** ** C123: in the documented loop the actuators stay where the joints are inside their limits *)

(** With PositionJointSaturationHandles. *)
Theorem C123_saturation : forall (L : nat -> limits exact) r i m s,
  well_wired r -> all_limited r i ->
  (forall nm h, In (nm, h) i -> lh_state h = pos_sat_make (L (lh_joint h)) /\ pos_limits_ok rational (L (lh_joint h))) ->
  positions_inside (fun k => inside (min_position (L k)) (max_position (L k))) r m ->
  cycles (fun h j dt => Some (pos_sat_enforce h j dt)) pos_sat_reset (period_ok rational) r (i, m) s ->
  limits_hold (fun h j dt => Some (pos_sat_enforce h j dt)) pos_sat_reset (period_ok rational)
    (fun k => inside (min_position (L k)) (max_position (L k))) r s.
Proof.
  intros L r i m s W AL HL PI HC. eapply loop_safe with (inv := sat_inv L); eauto.
  - intros k x. apply within_num.
  - intros k x y. apply within_eq.
  - intros k a b x. apply within_between.
  - intros k h j dt. apply sat_step.
  - intros k h. apply sat_reset.
  - split; [exact AL|]. split; [|exact PI]. intros nm h Hi. destruct (HL nm h Hi) as [-> HO].
    split; [exact HO|]. exists true. apply (ps_inv_make exact_laws). apply HO.
Qed.
Print Assumptions C123_saturation.

(** With PositionJointSoftLimitsHandles: the joint limits hold; and if every joint starts inside its
    soft limits, they hold as well. *)
Theorem C123_soft : forall (L : nat -> limits exact) (S : nat -> soft_limits exact) r i m s,
  let hard k := inside (min_position (L k)) (max_position (L k)) in
  let both k x := hard k x /\ inside (soft_min (S k)) (soft_max (S k)) x in
  let period dt := forall nm h, In (nm, h) i -> soft_period rational gain_exact (S (lh_joint h)) dt in
  well_wired r -> all_limited r i ->
  (forall nm h, In (nm, h) i -> pos_soft_make (L (lh_joint h)) (S (lh_joint h)) = Some (lh_state h) /\
     soft_position_ok rational (L (lh_joint h)) (S (lh_joint h))) ->
  cycles pos_soft_enforce pos_soft_reset period r (i, m) s ->
  (positions_inside hard r m -> limits_hold pos_soft_enforce pos_soft_reset period hard r s) /\
  (positions_inside both r m -> limits_hold pos_soft_enforce pos_soft_reset period both r s).
Proof.
  intros L S r i m s hard both period W AL HL HC.
  set (used := fun k => exists nm h, In (nm, h) i /\ lh_joint h = k).
  assert (HP : forall dt, period dt -> forall k, used k -> soft_period rational gain_exact (S k) dt).
  { intros dt Hdt k (nm & h & Hi & <-). eauto. }
  assert (IN : forall Z, all_inv (soft_inv L S used Z) i).
  { intros Z nm h Hi. destruct (HL nm h Hi) as [Em Hs]. split; [exists nm, h; auto|]. split; [exact Hs|]. exists true.
    unfold pos_soft_make in Em. rewrite (proj1 (proj2 (proj1 Hs))) in Em. injection Em as <-.
    split; [reflexivity|]. split; [reflexivity|]. split; [reflexivity|discriminate]. }
  split; intros PI.
  - eapply loop_safe with (inv := soft_inv L S used hard); eauto.
    + intros k x. apply within_num.
    + intros k x y. apply within_eq.
    + intros k a b x. apply within_between.
    + intros k h j dt H1 H2. apply soft_step with (L := L) (S := S) (used := used); eauto.
      intros k' Hk'. exact (hard_kept exact_laws exact_gain (L k') (S k') Hk').
    + intros k h. apply soft_reset.
    + split; [exact AL|]. split; [apply IN | exact PI].
  - eapply loop_safe with (inv := soft_inv L S used both); eauto.
    + intros k x [Hx _]. exact (within_num _ _ _ Hx).
    + intros k x y [H1 H2] E. split; [exact (within_eq _ _ _ _ H1 E) | exact (within_eq _ _ _ _ H2 E)].
    + intros k a b x [H1 H2] [H3 H4] B.
      split; [exact (within_between _ _ _ _ _ H1 H3 B) | exact (within_between _ _ _ _ _ H2 H4 B)].
    + intros k h j dt H1 H2. apply soft_step with (L := L) (S := S) (used := used); eauto.
      intros k' Hk'. exact (soft_kept exact_laws exact_gain (L k') (S k') Hk').
    + intros k h. apply soft_reset.
    + split; [exact AL|]. split; [apply IN | exact PI].
Qed.
Print Assumptions C123_soft.

(** The robot of the documentation (transmission_interface/mainpage.dox:94-160): a reducer of -10 with offset
    1 and a differential with reducers of 5 at the actuators.  Actuator positions 0-2, velocities 3-5,
    efforts 6-8, position commands 9-11; joints likewise from 20. *)
Definition doc_simple : transmission exactd := Simple exactd (n_ (-10)) (n_ 1).
Definition doc_diff : transmission exactd := Differential exactd [n_ 5; n_ 5] [n_ 1; n_ 1] [n_ 0; n_ 0] false.
Definition doc_hs1 := mkHandle exactd "sim_trans" doc_simple
  (mkData [Some 0] [Some 3] [Some 6] [] []) (mkData [Some 20] [Some 23] [Some 26] [] []).
Definition doc_hs2 := mkHandle exactd "dif_trans" doc_diff
  (mkData [Some 1; Some 2] [Some 4; Some 5] [Some 7; Some 8] [] [])
  (mkData [Some 21; Some 22] [Some 24; Some 25] [Some 27; Some 28] [] []).
Definition doc_hc1 := mkHandle exactd "sim_trans" doc_simple
  (mkData [Some 9] [] [] [] []) (mkData [Some 29] [] [] [] []).
Definition doc_hc2 := mkHandle exactd "dif_trans" doc_diff
  (mkData [Some 10; Some 11] [] [] [] []) (mkData [Some 30; Some 31] [] [] [] []).
Definition doc_robot : robot exactd := mkRobot exactd
  (register_handle exactd doc_hs2 (register_handle exactd doc_hs1 []))
  (register_handle exactd doc_hc2 (register_handle exactd doc_hc1 []))
  (fun k => 20 + k) (fun k => 23 + k) (fun k => 29 + k).
(** All joints between -1 and 2, at most 10 per second; and a limit handle for each. *)
Definition doc_limits : limits exact :=
  @mkLimits exact (n_ (-1)) (n_ 2) (n_ 10) (n_ 0) (n_ 0) (n_ 0) true true false false false false.
Definition doc_lims : lim_iface (pos_sat exact) :=
  [("j0", mkLim (pos_sat_make doc_limits) 0); ("j1", mkLim (pos_sat_make doc_limits) 1);
   ("j2", mkLim (pos_sat_make doc_limits) 2)].
(** All actuators at 0; controllers then ask for 5, -3 and 1/2, with a period of 1/10. *)
Definition doc_mem : mem exactd := fun _ => n_ 0.
Definition doc_asked (m : mem exactd) : mem exactd :=
  upd exactd (upd exactd (upd exactd m 29 (n_ 5)) 30 (n_ (-3))) 31 (Some (1 # 2)%Q).

Lemma doc_made : make_handle exactd "sim_trans" (Some doc_simple) (h_act exactd doc_hs1) (h_jnt exactd doc_hs1) = Some doc_hs1 /\
  make_handle exactd "dif_trans" (Some doc_diff) (h_act exactd doc_hs2) (h_jnt exactd doc_hs2) = Some doc_hs2 /\
  make_handle exactd "sim_trans" (Some doc_simple) (h_act exactd doc_hc1) (h_jnt exactd doc_hc1) = Some doc_hc1 /\
  make_handle exactd "dif_trans" (Some doc_diff) (h_act exactd doc_hc2) (h_jnt exactd doc_hc2) = Some doc_hc2 /\
  make_simple exactd (n_ (-10)) (n_ 1) = Some doc_simple /\
  make_differential exactd [n_ 5; n_ 5] [n_ 1; n_ 1] [n_ 0; n_ 0] false = Some doc_diff.
Proof. repeat split; reflexivity. Qed.

Lemma doc_drives hs hc ks : drives doc_robot hs hc ks ->
  (hs = doc_hs1 /\ hc = doc_hc1 /\ ks = [0]) \/ (hs = doc_hs2 /\ hc = doc_hc2 /\ ks = [1; 2]).
Proof.
  intros (Hs & Hc & Et & Ej & _). cbn in Hs, Hc.
  destruct Hs as [<- | [<- | []]], Hc as [<- | [<- | []]]; cbn in Et; try discriminate Et.
  - right. split; [reflexivity|]. split; [reflexivity|]. cbn in Ej.
    destruct ks as [|[|[|?]] [|[|[|[|?]]] [|? ?]]]; cbn in Ej; try discriminate Ej. reflexivity.
  - left. split; [reflexivity|]. split; [reflexivity|]. cbn in Ej.
    destruct ks as [|[|?] [|? ?]]; cbn in Ej; try discriminate Ej. reflexivity.
Qed.
Lemma doc_drives1 : drives doc_robot doc_hs1 doc_hc1 [0].
Proof. repeat split; cbn; auto. Qed.
Lemma doc_drives2 : drives doc_robot doc_hs2 doc_hc2 [1; 2].
Proof. repeat split; cbn; auto. Qed.

Example C123_nonvacuous :
  well_wired doc_robot /\ all_limited doc_robot doc_lims /\ pos_limits_ok rational doc_limits /\
  positions_inside (fun _ => inside (min_position doc_limits) (max_position doc_limits)) doc_robot doc_mem /\
  period_ok rational (Some (1 # 10)%Q) /\
  exists m1, robot_read exactd doc_robot doc_mem = Ok m1 /\ controllers doc_robot m1 (doc_asked m1) /\
    match robot_write exactd (fun h j dt => Some (pos_sat_enforce h j dt)) doc_robot doc_lims (doc_asked m1) (Some (1 # 10)%Q) with
    | Ok (_, m3) => (* joints at 1, 0, 0; asked 5, -3, 1/2; sent 2, -1, 1/2 *)
        map (fun a => match m3 a with Some x => Qred x | None => 999%Q end) [29; 30; 31; 9; 10; 11] =
        [2; -1; 1 # 2; -10; -(5 # 2); -(15 # 2)]%Q
    | _ => False
    end.
Proof.
  destruct doc_made as (M1 & M2 & M3 & M4 & C1 & C2).
  split; [|split; [|split; [|split; [|split]]]].
  - assert (R : forall q : list (num exact), forallb (fun x => match x with Some _ => true | None => false end) q = true -> Forall rational q).
    { intros q Hq. apply Forall_forall. intros x Hx. rewrite forallb_forall in Hq. specialize (Hq x Hx). now destruct x. }
    split; [|split; [|split; [|split; [|split; [|split; [|split]]]]]].
    + intros h Hh. cbn in Hh. destruct Hh as [<- | [<- | []]]; (split; [|split; [apply R; reflexivity|split; [do 4 eexists; eauto|]]]).
      * right. left. eauto.
      * split; [|cbn; intuition discriminate]. intros q Hq. cbn in Hq. destruct Hq as [<- | [<- | [<- | []]]]; split; discriminate.
      * left. eauto.
      * split; [|cbn; intuition discriminate]. intros q Hq. cbn in Hq. destruct Hq as [<- | [<- | [<- | []]]]; split; discriminate.
    + intros h Hh. cbn in Hh. destruct Hh as [<- | [<- | []]]; (split; [|split; [apply R; reflexivity|split; [do 4 eexists; eauto|]]]).
      * right. left. eauto.
      * split; [|cbn; intuition discriminate]. intros q Hq. cbn in Hq. destruct Hq as [<- | []]; split; discriminate.
      * left. eauto.
      * split; [|cbn; intuition discriminate]. intros q Hq. cbn in Hq. destruct Hq as [<- | []]; split; discriminate.
    + cbn. nodup.
    + cbn. nodup.
    + apply all_out. reflexivity.
    + apply all_out. reflexivity.
    + apply all_out. reflexivity.
    + intros hc Hc. cbn in Hc. destruct Hc as [<- | [<- | []]]; do 2 eexists; [apply doc_drives2 | apply doc_drives1].
  - split; [cbn; nodup|]. split.
    + intros nm h Hi. cbn in Hi. destruct Hi as [E | [E | [E | []]]]; injection E as <- <-.
      * exists doc_hs1, doc_hc1, [0]. split; [apply doc_drives1 | now left].
      * exists doc_hs2, doc_hc2, [1; 2]. split; [apply doc_drives2 | now left].
      * exists doc_hs2, doc_hc2, [1; 2]. split; [apply doc_drives2 | now right; left].
    + intros hs hc ks k Hd Hk. apply doc_drives in Hd as [(_ & _ & ->) | (_ & _ & ->)].
      * destruct Hk as [<- | []]. eexists; eexists; split; [now left | reflexivity].
      * destruct Hk as [<- | [<- | []]]; eexists; eexists; (split; [|shelve]); [right; left; reflexivity | right; right; left; reflexivity].
        Unshelve. all: reflexivity.
  - repeat split; try discriminate; try reflexivity.
  - intros hs hc ks Hd. apply doc_drives in Hd as [(-> & _ & ->) | (-> & _ & ->)].
    + exists [1%Q]. split; [exists [0%Q]; split; reflexivity|]. repeat constructor; apply exact_le_some; discriminate.
    + exists [0%Q; 0%Q]. split; [exists [0%Q; 0%Q]; split; [reflexivity|split; reflexivity]|].
      repeat constructor; apply exact_le_some; discriminate.
  - split; [discriminate|]. apply exact_le_some. discriminate.
  - eexists. split; [reflexivity|]. split.
    + split.
      * intros a Ha. unfold doc_asked, upd.
        destruct (Nat.eqb_spec a 31) as [->|N1]; [elim Ha; cbn; auto|].
        destruct (Nat.eqb_spec a 30) as [->|N2]; [elim Ha; cbn; auto|].
        destruct (Nat.eqb_spec a 29) as [->|N3]; [elim Ha; cbn; auto|]. reflexivity.
      * intros a Ha. cbn in Ha. destruct Ha as [<- | [<- | [<- | []]]]; discriminate.
    + vm_compute. reflexivity.
Qed.

(** Joints move between where they are and where they are sent if each actuator does, as far as reducers
    are concerned ... *)
Theorem C123_reducer_moves : forall red off t x0 xc x y0 yc y,
  make_simple exactd (Some red) (Some off) = Some t ->
  joint_formula t Position [x0] [y0] -> joint_formula t Position [xc] [yc] -> joint_formula t Position [x] [y] ->
  between x0 xc x -> between y0 yc y.
Proof.
  intros red off t x0 xc x y0 yc y Ht. unfold make_simple in Ht.
  destruct (is_zero exactd (Some red)) eqn:Ez; [discriminate Ht|]. injection Ht as <-.
  unfold joint_formula. intros H0 Hc Hy.
  assert (Nz : ~ (red == 0)%Q). { intros K. cbn in Ez. apply Qeq_bool_iff in K. rewrite K in Ez. discriminate Ez. }
  assert (S : (0 < red)%Q \/ (red < 0)%Q) by (destruct (Q_dec red 0) as [[?|?]|?]; tauto).
  assert (D : forall a b, (a <= b)%Q -> ((0 < red)%Q -> (a / red <= b / red)%Q) /\ ((red < 0)%Q -> (b / red <= a / red)%Q)).
  { intros a b Hab. split; intros Hr.
    - unfold Qdiv. apply Qmult_le_compat_r; [exact Hab|]. apply Qlt_le_weak, Qinv_lt_0_compat, Hr.
    - assert (E1 : forall z, (z / red == (- z) / (- red))%Q) by (intros z; field; auto).
      rewrite !E1. unfold Qdiv. apply Qmult_le_compat_r; [lra|]. apply Qlt_le_weak, Qinv_lt_0_compat. lra. }
  unfold between. intros [[B1 B2]|[B1 B2]]; destruct (D _ _ B1) as [D1 D1'], (D _ _ B2) as [D2 D2'];
    destruct S as [S|S]; try specialize (D1 S); try specialize (D2 S); try specialize (D1' S); try specialize (D2' S);
    [left|right|right|left]; lra.
Qed.
Print Assumptions C123_reducer_moves.

Example C123_reducer_moves_nonvacuous : exists t, make_simple exactd (n_ (-10)) (n_ 1) = Some t /\
  joint_formula t Position [0%Q] [1%Q] /\ joint_formula t Position [(-10)%Q] [2%Q] /\ joint_formula t Position [(-5)%Q] [(3 # 2)%Q] /\
  between 0 (-10) (-5).
Proof. eexists. split; [reflexivity|]. repeat split; try reflexivity. right. split; discriminate. Qed.

(** ... but not for a differential: from joints at (0, 0) to joints at (1, 0), both inside [0, 1], if the second
    actuator is faster the second joint leaves its limits on the way. *)
Theorem C123_differential_moves_refuted : exists t x0 xc x y0 yc y,
  make_differential exactd [n_ 1; n_ 1] [n_ 1; n_ 1] [n_ 0; n_ 0] false = Some t /\
  joint_formula t Position x0 y0 /\ joint_formula t Position xc yc /\ joint_formula t Position x y /\
  Forall2 (fun p v => between (fst p) (snd p) v) (combine x0 xc) x /\
  Forall (fun v => inside (n_ 0) (n_ 1) (Some v)) y0 /\ Forall (fun v => inside (n_ 0) (n_ 1) (Some v)) yc /\
  ~ Forall (fun v => inside (n_ 0) (n_ 1) (Some v)) y.
Proof.
  eexists. exists [0%Q; 0%Q], [1%Q; 1%Q], [0%Q; 1%Q], [0%Q; 0%Q], [1%Q; 0%Q], [(1 # 2)%Q; (-(1 # 2))%Q].
  split; [reflexivity|]. split; [split; reflexivity|]. split; [split; reflexivity|]. split; [split; reflexivity|].
  split; [constructor; [left; split; discriminate|]; constructor; [left; split; discriminate|]; constructor|].
  split; [repeat constructor; apply exact_le_some; discriminate|].
  split; [repeat constructor; apply exact_le_some; discriminate|].
  intros K. inversion K as [|? ? _ K1]; subst. inversion K1 as [|? ? K2 _]; subst.
  destruct K2 as [K2 _]. apply exact_le_some in K2. vm_compute in K2. now apply K2.
Qed.
Print Assumptions C123_differential_moves_refuted.

(** The same robot with soft limits between -1/2 and 3/2 and a gain of 5. *)
Definition doc_softs : soft_limits exact := @mkSoft exact (Some (-(1 # 2))%Q) (Some (3 # 2)%Q) (n_ 5) (n_ 0).
Definition doc_soft_lims : lim_iface (pos_soft exact) :=
  [("j0", mkLim (mkPosSoft doc_limits doc_softs None) 0); ("j1", mkLim (mkPosSoft doc_limits doc_softs None) 1);
   ("j2", mkLim (mkPosSoft doc_limits doc_softs None) 2)].
Example C123_soft_nonvacuous :
  pos_soft_make doc_limits doc_softs = Some (mkPosSoft doc_limits doc_softs None) /\
  soft_position_ok rational doc_limits doc_softs /\ soft_period rational gain_exact doc_softs (Some (1 # 10)%Q) /\
  shape doc_soft_lims = shape doc_lims /\
  match robot_read exactd doc_robot doc_mem with
  | Ok m1 =>
      match robot_write exactd pos_soft_enforce doc_robot doc_soft_lims (doc_asked m1) (Some (1 # 10)%Q) with
      | Ok (_, m3) => (* joints at 1, 0, 0; asked 5, -3, 1/2; sent 5/4, -1/4, 1/2 *)
          map (fun a => match m3 a with Some x => Qred x | None => 999%Q end) [29; 30; 31; 9] =
          [5 # 4; -(1 # 4); 1 # 2; -(5 # 2)]%Q
      | _ => False
      end
  | _ => False
  end.
Proof.
  split; [reflexivity|]. split.
  - repeat split; try discriminate; try reflexivity; try (apply exact_le_some; discriminate).
  - split; [|split; [reflexivity|vm_compute; reflexivity]].
    split; [discriminate|]. split; [reflexivity|]. exists 5%Q, (1 # 10)%Q. repeat split. discriminate.
Qed.
