(** Proofs about the parser, and about the parameters of loaded transmissions. *)
From Coq Require Import Permutation.
From Verif Require Import TransSpec LoadModel LoadSpec.
Local Open Scope string_scope.

(** ** The parser *)

Lemma texts_selects l : selects (fun e s => get_text e = Some s) l (texts l).
Proof.
  induction l as [|n l IH]; cbn; [constructor|].
  destruct (get_text n) eqn:E; constructor; auto. intros y. rewrite E. discriminate.
Qed.

Lemma selects_fun {T U} (R : T -> U -> Prop) l l1 l2 :
  (forall x y y', R x y -> R x y' -> y = y') -> selects R l l1 -> selects R l l2 -> l1 = l2.
Proof.
  intros HR H1. revert l2. induction H1; intros l2 H2; inversion H2; subst; auto.
  - f_equal; eauto.
  - exfalso. match goal with H : forall y, ~ R x y |- _ => eapply H; eauto end.
  - exfalso. eapply H; eauto.
Qed.

Lemma describes_joint_fun n j j' : describes_joint n j -> describes_joint n j' -> j = j'.
Proof.
  intros (H1 & _ & H3 & _ & H5 & H6) (K1 & _ & K3 & _ & K5 & K6). destruct j, j'; cbn in *. subst.
  assert (ji_ifaces = ji_ifaces0) as -> by (eapply selects_fun; [|exact H3|exact K3]; cbn; congruence).
  assert (ji_role = ji_role0) as -> by (match type of H5 with context [first_child ?a ?b] => destruct (first_child a b) as [r|] end; [destruct (get_text r)|]; congruence).
  congruence.
Qed.
Lemma describes_actuator_fun n j j' : describes_actuator n j -> describes_actuator n j' -> j = j'.
Proof.
  intros (H1 & _ & H3 & H5) (K1 & _ & K3 & K5). destruct j, j'; cbn in *. subst.
  assert (ai_ifaces = ai_ifaces0) as -> by (eapply selects_fun; [|exact H3|exact K3]; cbn; congruence).
  congruence.
Qed.

Lemma joints_loop_spec l : forall acc,
  match joints_loop l acc with
  | None => exists e, In e l /\ attribute "name" e = None
  | Some js => (forall e, In e l -> attribute "name" e <> None) /\ exists js', js = (acc ++ js')%list /\ selects describes_joint l js'
  end.
Proof.
  induction l as [|n l IH]; intros acc; cbn.
  - split; [easy|]. exists []. rewrite app_nil_r. split; [reflexivity | constructor].
  - destruct (attribute "name" n) as [name|] eqn:E; [|exists n; auto].
    assert (SK : forall acc', (match joints_loop l acc' with
       | None => exists e, In e l /\ attribute "name" e = None
       | Some js => (forall e, In e l -> attribute "name" e <> None) /\ exists js', js = (acc' ++ js')%list /\ selects describes_joint l js' end) ->
       forall f, (forall js', selects describes_joint l js' -> exists js'', (acc' ++ js' = acc ++ js'')%list /\ f js'' js') ->
       (forall js' js'', f js'' js' -> selects describes_joint l js' -> selects describes_joint (n :: l) js'') ->
       match joints_loop l acc' with
       | None => exists e, (n = e \/ In e l) /\ attribute "name" e = None
       | Some js => (forall e, n = e \/ In e l -> attribute "name" e <> None) /\ exists js', js = (acc ++ js')%list /\ selects describes_joint (n :: l) js' end).
    { intros acc' H f Hf Hs. destruct (joints_loop l acc') as [js|].
      - destruct H as (H1 & js' & -> & H2). split.
        + intros e [<-|He]; [congruence | auto].
        + destruct (Hf js' H2) as (js'' & -> & H3). eauto.
      - destruct H as (e & He & Hn). eauto. }
    destruct (String.eqb_spec name "") as [->|NE].
    { apply (SK acc (IH acc) eq); [eauto|]. intros js' js'' -> H. apply sel_skip; [|exact H].
      intros y (H1 & H2 & _). congruence. }
    destruct (texts (children "hardwareInterface" n)) as [|i is] eqn:ET.
    { apply (SK acc (IH acc) eq); [eauto|]. intros js' js'' -> H. apply sel_skip; [|exact H].
      intros y (_ & _ & H3 & H4 & _). apply H4.
      pose proof (texts_selects (children "hardwareInterface" n)) as HT. rewrite ET in HT.
      eapply selects_fun; [|exact H3|exact HT]; cbn; congruence. }
    set (j := mkJInfo _ _ _ _).
    apply (SK _ (IH _) (fun js'' js' => js'' = j :: js')).
    + intros js' _. exists (j :: js'). rewrite <- app_assoc. auto.
    + intros js' js'' -> H. apply sel_keep; [|exact H]. unfold j. repeat split; cbn; auto.
      * rewrite <- ET. apply texts_selects.
      * discriminate.
      * destruct (first_child "role" n) as [r|]; [destruct (get_text r)|]; reflexivity.
Qed.

Lemma actuators_loop_spec l : forall acc,
  match actuators_loop l acc with
  | None => exists e, In e l /\ attribute "name" e = None
  | Some js => (forall e, In e l -> attribute "name" e <> None) /\ exists js', js = (acc ++ js')%list /\ selects describes_actuator l js'
  end.
Proof.
  induction l as [|n l IH]; intros acc; cbn.
  - split; [easy|]. exists []. rewrite app_nil_r. split; [reflexivity | constructor].
  - destruct (attribute "name" n) as [name|] eqn:E; [|exists n; auto].
    destruct (String.eqb_spec name "") as [->|NE].
    + specialize (IH acc). destruct (actuators_loop l acc) as [js|].
      * destruct IH as (H1 & js' & -> & H2). split; [intros e [<-|He]; [congruence|auto]|].
        exists js'. split; [reflexivity|]. apply sel_skip; [|exact H2]. intros y (K1 & K2 & _). congruence.
      * destruct IH as (e & He & Hn). eauto.
    + set (a := mkAInfo _ _ _). specialize (IH (acc ++ [a])%list). destruct (actuators_loop l _) as [js|].
      * destruct IH as (H1 & js' & -> & H2). split; [intros e [<-|He]; [congruence|auto]|].
        exists (a :: js'). rewrite <- app_assoc. split; [reflexivity|]. apply sel_keep; [|exact H2].
        unfold a. repeat split; cbn; auto. apply texts_selects.
      * destruct IH as (e & He & Hn). eauto.
Qed.

Lemma parse_transmission_spec n :
  match parse_transmission n with
  | None => forall t, ~ describes_transmission n t
  | Some t => describes_transmission n t
  end.
Proof.
  unfold parse_transmission.
  destruct (attribute "name" n) as [name|] eqn:EN; [|intros t (H & _); congruence].
  destruct (String.eqb_spec name "") as [->|NE]; [intros t (H & H' & _); congruence|].
  destruct (first_child "type" n) as [ty|] eqn:ET; [|intros t (_ & _ & (e & H & _) & _); congruence].
  destruct (get_text ty) as [type|] eqn:EY; [|intros t (_ & _ & (e & H & H') & _); congruence].
  unfold parse_joints, parse_actuators.
  pose proof (joints_loop_spec (children "joint" n) []) as HJ.
  destruct (joints_loop (children "joint" n) []) as [js|].
  2:{ destruct HJ as (e & He & Hn). intros t (_ & _ & _ & H & _). apply (H e); auto. apply in_or_app; auto. }
  destruct HJ as (HJ1 & js' & -> & HJ2). cbn [app].
  destruct js' as [|j js].
  { intros t (_ & _ & _ & _ & H & H' & _). apply H'. eapply selects_fun; eauto using describes_joint_fun. }
  pose proof (actuators_loop_spec (children "actuator" n) []) as HA.
  destruct (actuators_loop (children "actuator" n) []) as [acts|].
  2:{ destruct HA as (e & He & Hn). intros t (_ & _ & _ & H & _). apply (H e); auto. apply in_or_app; auto. }
  destruct HA as (HA1 & as' & -> & HA2). cbn [app].
  destruct as' as [|a acts].
  { intros t (_ & _ & _ & _ & _ & _ & H & H'). apply H'. eapply selects_fun; eauto using describes_actuator_fun. }
  repeat split; cbn; auto; try discriminate.
  - exists ty. auto.
  - intros e He. apply in_app_or in He. destruct He; auto.
Qed.

Lemma transmissions_loop_spec l : forall acc,
  exists ts, transmissions_loop l acc = (acc ++ ts)%list /\ selects describes_transmission l ts.
Proof.
  induction l as [|n l IH]; intros acc; cbn.
  - exists []. rewrite app_nil_r. split; [reflexivity | constructor].
  - pose proof (parse_transmission_spec n) as H. destruct (parse_transmission n) as [t|].
    + destruct (IH (acc ++ [t])%list) as (ts & -> & HS). exists (t :: ts). rewrite <- app_assoc. split; [reflexivity|]. now constructor.
    + destruct (IH acc) as (ts & -> & HS). exists ts. split; [reflexivity|]. now constructor.
Qed.

Lemma describes_transmission_fun n t t' : describes_transmission n t -> describes_transmission n t' -> t = t'.
Proof.
  intros (H1 & _ & (e & H2 & H3) & _ & H4 & _ & H5 & _) (K1 & _ & (e' & K2 & K3) & _ & K4 & _ & K5 & _).
  destruct t, t'; cbn in *.
  assert (ti_joints = ti_joints0) as -> by (eapply selects_fun; eauto using describes_joint_fun).
  assert (ti_actuators = ti_actuators0) as -> by (eapply selects_fun; eauto using describes_actuator_fun).
  congruence.
Qed.

Lemma selects_in {T U} (R : T -> U -> Prop) l l' : selects R l l' -> forall y, In y l' -> exists x, In x l /\ R x y.
Proof.
  induction 1; intros z Hz; [easy| |].
  - destruct Hz as [<-|Hz]; [exists x; cbn; auto|]. destruct (IHselects z Hz) as (w & Hw & HR). exists w; cbn; auto.
  - destruct (IHselects z Hz) as (w & Hw & HR). exists w; cbn; auto.
Qed.

Lemma described_complete n t : describes_transmission n t -> complete t.
Proof.
  intros (_ & _ & _ & _ & HS & HN & _). split; [exact HN|].
  intros j Hj. destruct (selects_in _ _ _ HS j Hj) as (e & _ & H). apply H.
Qed.

(** ** Parameters *)

Section Params.
Context (A : larith).

Lemma get_number_ok tag req old n x : get_number A tag req old n = Got x ->
  number A tag (if req then None else Some old) n x.
Proof.
  unfold get_number, number. destruct (first_child tag n).
  - destruct (get_text n0) as [s|]; [|discriminate]. destruct (stod A s) eqn:E; [|discriminate].
    intros [= <-]. eauto.
  - destruct req; [discriminate|]. now intros [= <-].
Qed.

Lemma get_role_ok n r : get_role n = Got r -> role n r.
Proof.
  unfold get_role, role. destruct (first_child "role" n) as [e|]; [|discriminate].
  destruct (get_text e) as [s|] eqn:E; [|discriminate]. intros [= <-]. eauto.
Qed.
Lemma get_role_def n : get_role n <> Undef.
Proof. unfold get_role. destruct (first_child "role" n) as [e|]; [|discriminate]. destruct (get_text e); discriminate. Qed.

Lemma by_role_swap r1 r2 e0 e1 : r1 <> r2 -> by_role r1 r2 e0 e1 = by_role r1 r2 e1 e0.
Proof.
  intros NE. unfold by_role.
  pose proof (get_role_def e0) as D0. pose proof (get_role_def e1) as D1.
  destruct (get_role e0) as [s0| |], (get_role e1) as [s1| |]; try congruence; cbn;
    repeat match goal with |- context [String.eqb ?a ?b] => destruct (String.eqb_spec a b); cbn; subst; try congruence end; try reflexivity.
Qed.
Lemma by_role_ok r1 r2 e0 e1 es : r1 <> r2 -> by_role r1 r2 e0 e1 = Got es ->
  role (fst es) r1 /\ role (snd es) r2 /\ (es = (e0, e1) \/ es = (e1, e0)).
Proof.
  intros NE. unfold by_role.
  destruct (get_role e0) as [s0| |] eqn:E0; cbn; try discriminate.
  destruct (get_role e1) as [s1| |] eqn:E1; cbn;
    repeat match goal with |- context [String.eqb ?a ?b] => destruct (String.eqb_spec a b); cbn; subst; try congruence end;
    intros [= <-]; cbn; apply get_role_ok in E0; apply get_role_ok in E1; auto.
Qed.

Lemma perm2 {T} (x y : T) l : Permutation [x; y] l -> l = [x; y] \/ l = [y; x].
Proof.
  intros H. pose proof (Permutation_length H) as L. destruct l as [|u [|v [|]]]; try discriminate L.
  pose proof (Permutation_in x H (or_introl eq_refl)) as [->|[->|[]]].
  - apply Permutation_cons_inv in H. apply Permutation_length_1 in H. left; congruence.
  - right. assert (H' : Permutation [x; y] [x; u]) by (rewrite H; constructor).
    apply Permutation_cons_inv in H'. apply Permutation_length_1 in H'. congruence.
Qed.

(** Lists that are permutations of each other are both singletons, both pairs, or neither. *)
Lemma load_simple_perm i i' : reordered i i' -> load_simple A i = load_simple A i'.
Proof.
  intros (_ & _ & HJ & HA). unfold load_simple.
  destruct (ti_actuators i) as [|a [|a2 ar]].
  - apply Permutation_nil in HA. now rewrite HA.
  - apply Permutation_length_1_inv in HA. rewrite HA.
    destruct (ti_joints i) as [|j [|j2 jr]].
    + apply Permutation_nil in HJ. now rewrite HJ.
    + apply Permutation_length_1_inv in HJ. now rewrite HJ.
    + apply Permutation_length in HJ. destruct (ti_joints i') as [|? [|? ?]]; try discriminate HJ; reflexivity.
  - apply Permutation_length in HA. destruct (ti_actuators i') as [|? [|? ?]]; try discriminate HA; reflexivity.
Qed.

Lemma two_perm {R} (i i' : transmission_info) (f : actuator_info -> actuator_info -> joint_info -> joint_info -> got R) :
  (forall a0 a1 j0 j1, f a0 a1 j0 j1 = f a1 a0 j0 j1) -> (forall a0 a1 j0 j1, f a0 a1 j0 j1 = f a0 a1 j1 j0) ->
  reordered i i' ->
  match ti_actuators i, ti_joints i with [a0; a1], [j0; j1] => f a0 a1 j0 j1 | _, _ => Failed end =
  match ti_actuators i', ti_joints i' with [a0; a1], [j0; j1] => f a0 a1 j0 j1 | _, _ => Failed end.
Proof.
  intros FA FJ (_ & _ & HJ & HA).
  assert (D : (exists a b, ti_actuators i = [a; b]) \/ List.length (ti_actuators i) <> 2).
  { destruct (ti_actuators i) as [|a [|b [|]]]; cbn; eauto. }
  assert (D' : (exists a b, ti_joints i = [a; b]) \/ List.length (ti_joints i) <> 2).
  { destruct (ti_joints i) as [|a [|b [|]]]; cbn; eauto. }
  destruct D as [(a & b & EA)|NA].
  - rewrite EA in *. destruct D' as [(c & d & EJ)|NJ].
    + rewrite EJ in *. apply perm2 in HA. apply perm2 in HJ.
      destruct HA as [->| ->], HJ as [->| ->]; auto; rewrite FA; auto.
    + pose proof (Permutation_length HJ) as L. apply perm2 in HA.
      destruct (ti_joints i) as [|? [|? [|]]]; cbn in NJ; try congruence;
        destruct (ti_joints i') as [|? [|? [|]]]; try discriminate L; destruct HA as [-> | ->]; reflexivity.
  - pose proof (Permutation_length HA) as L.
    destruct (ti_actuators i) as [|? [|? [|]]]; cbn in NA; try congruence;
      destruct (ti_actuators i') as [|? [|? [|]]]; try discriminate L; reflexivity.
Qed.

Lemma actuator_config_swap e0 e1 : actuator_config A e0 e1 = actuator_config A e1 e0.
Proof. unfold actuator_config. now rewrite by_role_swap. Qed.
Lemma joint_config_swap e0 e1 : joint_config A e0 e1 = joint_config A e1 e0.
Proof. unfold joint_config. now rewrite by_role_swap. Qed.
Lemma ignore_absolute_swap e0 e1 : ignore_absolute e0 e1 = ignore_absolute e1 e0.
Proof. unfold ignore_absolute. apply andb_comm. Qed.

Lemma load_transmission_perm i i' : reordered i i' -> load_transmission A i = load_transmission A i'.
Proof.
  intros HR. unfold load_transmission. rewrite <- (proj1 (proj2 HR)).
  rewrite (load_simple_perm i i' HR). unfold load_differential, load_four_bar.
  erewrite !(two_perm i i'); [reflexivity|..]; auto; intros.
  - now rewrite actuator_config_swap.
  - now rewrite joint_config_swap.
  - now rewrite actuator_config_swap.
  - rewrite joint_config_swap. destruct (actuator_config A _ _); cbn; [|reflexivity..].
    destruct (joint_config A _ _); cbn; [|reflexivity..]. now rewrite ignore_absolute_swap.
Qed.

Lemma configs_by_role i a0 a1 j0 j1 ar jc :
  ti_actuators i = [a0; a1] -> ti_joints i = [j0; j1] ->
  actuator_config A (ai_xml a0) (ai_xml a1) = Got ar -> joint_config A (ji_xml j0) (ji_xml j1) = Got jc ->
  by_roles A i ar (fst jc) (snd jc).
Proof.
  intros EA EJ HA HJ. unfold actuator_config in HA. unfold joint_config in HJ.
  destruct (by_role "actuator1" _ _ _) as [ea| |] eqn:RA; cbn in HA; try discriminate.
  destruct (get_number A _ _ _ (fst ea)) as [x1| |] eqn:N1; cbn in HA; try discriminate.
  destruct (get_number A _ _ _ (snd ea)) as [x2| |] eqn:N2; cbn in HA; try discriminate. injection HA as <-.
  destruct (by_role "joint1" _ _ _) as [ej| |] eqn:RJ; cbn in HJ; try discriminate.
  destruct (get_number A "mechanicalReduction" _ _ (fst ej)) as [y1| |] eqn:N3; cbn in HJ; try discriminate.
  destruct (get_number A "offset" _ _ (fst ej)) as [z1| |] eqn:N4; cbn in HJ; try discriminate.
  destruct (get_number A "mechanicalReduction" _ _ (snd ej)) as [y2| |] eqn:N5; cbn in HJ; try discriminate.
  destruct (get_number A "offset" _ _ (snd ej)) as [z2| |] eqn:N6; cbn in HJ; try discriminate. injection HJ as <-.
  apply by_role_ok in RA; [|discriminate]. apply by_role_ok in RJ; [|discriminate].
  apply get_number_ok in N1, N2, N3, N4, N5, N6.
  destruct RA as (RA1 & RA2 & PA), RJ as (RJ1 & RJ2 & PJ).
  assert (QA : exists b0 b1, Permutation (ti_actuators i) [b0; b1] /\ ai_xml b0 = fst ea /\ ai_xml b1 = snd ea).
  { rewrite EA. destruct PA as [-> | ->]; [exists a0, a1 | exists a1, a0]; repeat split; auto. constructor. }
  assert (QJ : exists b0 b1, Permutation (ti_joints i) [b0; b1] /\ ji_xml b0 = fst ej /\ ji_xml b1 = snd ej).
  { rewrite EJ. destruct PJ as [-> | ->]; [exists j0, j1 | exists j1, j0]; repeat split; auto. constructor. }
  destruct QA as (b0 & b1 & PA' & Q1 & Q2), QJ as (c0 & c1 & PJ' & Q3 & Q4).
  rewrite <- Q1 in *; rewrite <- Q2 in *; rewrite <- Q3 in *; rewrite <- Q4 in *.
  exists b0, b1, c0, c1, x1, x2, y1, y2, z1, z2. repeat split; auto.
Qed.

Lemma loaded_described i t : load_transmission A i = Got t -> as_described A i t.
Proof.
  unfold load_transmission, as_described.
  destruct (String.eqb_spec (ti_type i) "transmission_interface/SimpleTransmission") as [E|_].
  - unfold load_simple. destruct (ti_actuators i) as [|a [|]] eqn:EA; try discriminate.
    destruct (ti_joints i) as [|j [|]] eqn:EJ; try discriminate.
    destruct (get_number A _ _ _ (ai_xml a)) as [r| |] eqn:N1; cbn; try discriminate.
    destruct (get_number A _ _ _ (ji_xml j)) as [o| |] eqn:N2; cbn; try discriminate.
    destruct (make_simple A r o) eqn:EM; try discriminate. intros [= <-].
    apply get_number_ok in N1, N2. left. split; [exact E|]. exists a, j, r, o. auto.
  - destruct (String.eqb_spec (ti_type i) "transmission_interface/DifferentialTransmission") as [E|_].
    + unfold load_differential. destruct (ti_actuators i) as [|a0 [|a1 [|]]] eqn:EA; try discriminate.
      destruct (ti_joints i) as [|j0 [|j1 [|]]] eqn:EJ; try discriminate.
      destruct (actuator_config A _ _) as [ar| |] eqn:HA; cbn -[forallb]; try discriminate.
      destruct (joint_config A _ _) as [jc| |] eqn:HJ; cbn -[forallb]; try discriminate.
      destruct (make_differential A _ _ _ _) eqn:EM; try discriminate. intros [= <-].
      right; left. split; [exact E|]. exists ar, (fst jc), (snd jc). split; [eapply configs_by_role; eauto|].
      rewrite <- EM. f_equal. unfold ignore_absolute. cbn. rewrite andb_true_r.
      destruct (first_child _ (ji_xml j0)), (first_child _ (ji_xml j1)); reflexivity.
    + destruct (String.eqb_spec (ti_type i) "transmission_interface/FourBarLinkageTransmission") as [E|_]; [|discriminate].
      unfold load_four_bar. destruct (ti_actuators i) as [|a0 [|a1 [|]]] eqn:EA; try discriminate.
      destruct (ti_joints i) as [|j0 [|j1 [|]]] eqn:EJ; try discriminate.
      destruct (actuator_config A _ _) as [ar| |] eqn:HA; cbn; try discriminate.
      destruct (joint_config A _ _) as [jc| |] eqn:HJ; cbn; try discriminate.
      destruct (make_four_bar A _ _ _) eqn:EM; try discriminate. intros [= <-].
      right; right. split; [exact E|]. exists ar, (fst jc), (snd jc). split; [eapply configs_by_role; eauto | exact EM].
Qed.

(** *** Conversely, what is described is loaded *)

Lemma number_get tag (req : bool) (old : num A) n x : number A tag (if req then None else Some old) n x -> get_number A tag req old n = Got x.
Proof.
  unfold number, get_number. destruct (first_child tag n) as [e|].
  - intros (s & -> & ->). reflexivity.
  - destruct req; [discriminate|]. now intros [= ->].
Qed.
Lemma role_get n r : role n r -> get_role n = Got r.
Proof. intros (e & E & T). unfold get_role. now rewrite E, T. Qed.
Lemma by_role_sorted r1 r2 e0 e1 : r1 <> r2 -> role e0 r1 -> role e1 r2 -> by_role r1 r2 e0 e1 = Got (e0, e1).
Proof.
  intros N H0 H1. unfold by_role. rewrite (role_get _ _ H0). cbn. rewrite String.eqb_refl. cbn.
  rewrite (role_get _ _ H1). cbn. rewrite String.eqb_refl, orb_true_r. cbn.
  apply String.eqb_neq in N. now rewrite N.
Qed.

Lemma by_roles_configs i ar jr off : by_roles A i ar jr off ->
  exists a1 a2 j1 j2, reordered i (mkTInfo (ti_name i) (ti_type i) [j1; j2] [a1; a2]) /\
    actuator_config A (ai_xml a1) (ai_xml a2) = Got ar /\ joint_config A (ji_xml j1) (ji_xml j2) = Got (jr, off).
Proof.
  intros (a1 & a2 & j1 & j2 & x1 & x2 & y1 & y2 & z1 & z2 & PA & PJ & R1 & R2 & R3 & R4 & N1 & N2 & N3 & N4 & N5 & N6 & -> & -> & ->).
  exists a1, a2, j1, j2. split; [repeat split; auto|].
  unfold actuator_config, joint_config. rewrite !by_role_sorted by (auto; discriminate). cbn.
  rewrite (number_get _ true (zero A) _ _ N1). cbn. rewrite (number_get _ true (zero A) _ _ N2). cbn. split; [reflexivity|].
  rewrite (number_get _ false _ _ _ N3). cbn. rewrite (number_get _ false _ _ _ N5). cbn.
  rewrite (number_get _ false _ _ _ N4). cbn. rewrite (number_get _ false _ _ _ N6). reflexivity.
Qed.

Lemma described_loaded i t : as_described A i t -> load_transmission A i = Got t.
Proof.
  intros [(ET & a & j & r & o & EA & EJ & N1 & N2 & HM)|[(ET & ar & jr & off & HB & HM)|(ET & ar & jr & off & HB & HM)]].
  - unfold load_transmission. rewrite ET. cbn. unfold load_simple. rewrite EA, EJ.
    rewrite (number_get _ true (zero A) _ _ N1). cbn. rewrite (number_get _ false _ _ _ N2). cbn. now rewrite HM.
  - destruct (by_roles_configs i ar jr off HB) as (a1 & a2 & j1 & j2 & R & CA & CJ).
    rewrite (load_transmission_perm i _ R). unfold load_transmission. cbn [ti_type]. rewrite ET. cbn -[load_differential].
    unfold load_differential. cbn [ti_actuators ti_joints]. rewrite CA. cbn. rewrite CJ. cbn.
    destruct R as (_ & _ & PJ & _). cbn in PJ.
    assert (EI : ignore_absolute (ji_xml j1) (ji_xml j2) = forallb (fun j => match first_child "ignoreTransmissionAbsoluteEncoder" (ji_xml j) with Some _ => true | None => false end) (ti_joints i)).
    { transitivity (forallb (fun j => match first_child "ignoreTransmissionAbsoluteEncoder" (ji_xml j) with Some _ => true | None => false end) [j1; j2]).
      - unfold ignore_absolute. cbn. rewrite andb_true_r. destruct (first_child _ (ji_xml j1)), (first_child _ (ji_xml j2)); reflexivity.
      - apply perm2 in PJ || apply Permutation_sym, perm2 in PJ. destruct PJ as [-> | ->]; [reflexivity|]. cbn. rewrite !andb_true_r. apply andb_comm. }
    rewrite EI, HM. reflexivity.
  - destruct (by_roles_configs i ar jr off HB) as (a1 & a2 & j1 & j2 & R & CA & CJ).
    rewrite (load_transmission_perm i _ R). unfold load_transmission. cbn [ti_type]. rewrite ET. cbn -[load_four_bar].
    unfold load_four_bar. cbn [ti_actuators ti_joints]. rewrite CA. cbn. rewrite CJ. cbn. now rewrite HM.
Qed.
Lemma described_iff i t : as_described A i t <-> load_transmission A i = Got t.
Proof. split; [apply described_loaded | apply loaded_described]. Qed.

Lemma loaded_constructed i t : load_transmission A i = Got t -> constructed A t.
Proof.
  intros H. destruct (loaded_described i t H) as [(_ & a & j & r & o & _ & _ & _ & _ & HM)|[(_ & ar & jr & off & _ & HM)|(_ & ar & jr & off & _ & HM)]].
  - left. eauto.
  - right; left. eauto.
  - right; right. eauto.
Qed.

Lemma loaded_dims i t : load_transmission A i = Got t ->
  List.length (ti_actuators i) = num_actuators A t /\ List.length (ti_joints i) = num_joints A t.
Proof.
  intros H. destruct (loaded_described i t H) as [(_ & a & j & r & o & -> & -> & _ & _ & HM)|[(_ & ar & jr & off & HB & HM)|(_ & ar & jr & off & HB & HM)]].
  - unfold make_simple in HM. destruct (is_zero A r); [discriminate|]. injection HM as <-. auto.
  - destruct HB as (a1 & a2 & j1 & j2 & ? & ? & ? & ? & ? & ? & PA & PJ & _).
    apply Permutation_length in PA, PJ. rewrite PA, PJ.
    unfold make_differential in HM. destruct (_ || _); [discriminate|]. destruct (zero_reduction A ar jr); [discriminate|].
    injection HM as <-. auto.
  - destruct HB as (a1 & a2 & j1 & j2 & ? & ? & ? & ? & ? & ? & PA & PJ & _).
    apply Permutation_length in PA, PJ. rewrite PA, PJ.
    unfold make_four_bar in HM. destruct (_ || _); [discriminate|]. destruct (zero_reduction A ar jr); [discriminate|].
    injection HM as <-. auto.
Qed.

End Params.
