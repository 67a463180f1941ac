(** Proofs about the joint interfaces a transmission loader adds to a robot. *)
From Coq Require Import Lia.
From Verif Require Import HwTypes SMap SMapProofs HwModel HwSpec HwProofs HwMgr HwBuilt JointHwModel JointHwSpec.

Lemma jface_dec (j j' : jface) : {j = j'} + {j <> j'}.
Proof. decide equality. Qed.
Lemma jtype_inj j j' : jtype j = jtype j' -> j = j'.
Proof. destruct j, j'; intros E; try reflexivity; discriminate E. Qed.

Lemma get_absent k T m : forall w, ~ has_type T m -> get k T m w = (m, w, None).
Proof.
  induction m as [ifaces combo num res subs IH] using mgr_ind'. intros w N. rewrite get_eq.
  destruct (sfind T ifaces) as [p|] eqn:E; [destruct N; eapply Own; exact E|].
  assert (G : forall w, gets k T subs w = (subs, w, [])).
  { assert (N' : forall s, In s subs -> ~ has_type T s) by (intros s Hs H; apply N; eapply Sub; eauto). clear N E.
    induction IH as [|s subs Hs IH IHs]; intros w1; [reflexivity|]. cbn [gets]. rewrite Hs by (apply N'; left; reflexivity).
    fold (gets k T). rewrite IHs; [reflexivity|]. intros s' H'. apply N'. right. exact H'. }
  rewrite G. reflexivity.
Qed.
Lemma gets_absent k T subs : (forall s, In s subs -> ~ has_type T s) -> forall w, gets k T subs w = (subs, w, []).
Proof.
  induction subs as [|s subs IH]; intros N w; [reflexivity|]. cbn [gets]. rewrite get_absent by (apply N; left; reflexivity).
  fold (gets k T). rewrite IH; [reflexivity|]. intros s' H'. apply N. right. exact H'.
Qed.

Section Joints.
Variable own : jface -> nat.
Hypothesis own_inj : forall j j', own j = own j' -> j = j'.
Variables (ifaces0 : smap (option nat)) (combo0 num0 : smap nat) (res0 : smap (list string)) (subs0 : list mgr) (w0 : world).
Hypothesis none_below : forall j s, In s subs0 -> ~ has_type (jtype j) s.

(** [R]: the interfaces registered so far; [N]: the joints on them. *)
Record good (R : jface -> Prop) (N : jface -> string -> Prop) (ifaces : smap (option nat)) (res : smap (list string)) (w : world) : Prop := {
  gd_other : forall T, (forall j, T <> jtype j) -> sfind T ifaces = sfind T ifaces0 /\ sfind T res = sfind T res0;
  gd_mine : forall j, (R j /\ sfind (jtype j) ifaces = Some (Some (own j)) /\ sfind (jtype j) res = Some []) \/
                      (~ R j /\ sfind (jtype j) ifaces = None /\ sfind (jtype j) res = None /\ ho_map (w_obj w (own j)) = []);
  gd_next : w_next w = w_next w0;
  gd_objs : forall i, (forall j, i <> own j) -> w_obj w i = w_obj w0 i;
  gd_names : forall j n, rm_get (ho_map (w_obj w (own j))) n <> None <-> N j n }.

Lemma good_ext (R R' : jface -> Prop) (N N' : jface -> string -> Prop) ifaces res w :
  (forall j, R j <-> R' j) -> (forall j n, N j n <-> N' j n) -> good R N ifaces res w -> good R' N' ifaces res w.
Proof.
  intros HR HN [A B C D E]. constructor; auto.
  - intros j. rewrite <- (HR j). apply B.
  - intros j n. now rewrite <- HN.
Qed.

Lemma get_mine R N ifaces res w j : good R N ifaces res w -> R j ->
  get (jkind j) (jtype j) (Mgr ifaces combo0 num0 res subs0) w = (Mgr ifaces combo0 num0 res subs0, w, Some (own j)).
Proof.
  intros G Hj. destruct (gd_mine _ _ _ _ _ G j) as [(_ & E & _)|(H & _)]; [|contradiction].
  rewrite get_eq, E. rewrite (gets_absent (jkind j) (jtype j) subs0 (none_below j)). reflexivity.
Qed.

Lemma provide_good R N ifaces res w j : good R N ifaces res w -> exists ifaces' res',
  provide own j (Mgr ifaces combo0 num0 res subs0) w = Some (Mgr ifaces' combo0 num0 res' subs0, w, own j) /\
  good (fun x => R x \/ x = j) N ifaces' res' w.
Proof.
  intros G. destruct (gd_mine _ _ _ _ _ G j) as [(Hj & _)|(Hj & E1 & E2 & E3)].
  - exists ifaces, res. unfold provide. rewrite (get_mine _ _ _ _ _ _ G Hj). rewrite (get_mine _ _ _ _ _ _ G Hj). split; [reflexivity|].
    eapply good_ext; [| |exact G]; [|reflexivity]. intros x. split; [auto|]. intros [H| ->]; assumption.
  - set (ifaces' := sset (jtype j) (Some (own j)) ifaces). set (res' := sset (jtype j) [] res).
    assert (G' : good (fun x => R x \/ x = j) N ifaces' res' w).
    { destruct G as [A B C D F]. constructor; auto.
      - intros T HT. unfold ifaces', res'. rewrite !sfind_sset. destruct (String.eqb_spec T (jtype j)) as [->|_]; [now destruct (HT j)|]. apply A, HT.
      - intros x. unfold ifaces', res'. rewrite !sfind_sset. destruct (String.eqb_spec (jtype x) (jtype j)) as [Ex|Nx].
        + apply jtype_inj in Ex. subst x. left. auto.
        + destruct (B x) as [(H & H1 & H2)|(H & H1 & H2 & H3)]; [left; auto|right]. split; [|auto]. intros [Hx| ->]; [auto|now destruct Nx]. }
    exists ifaces', res'. split; [|exact G'].
    unfold provide. rewrite get_absent.
    + cbn [register_interface jkind tk_rm]. rewrite E3. cbn [rm_names skeys map].
      fold ifaces'. fold res'.
      rewrite (get_mine _ _ _ _ _ _ G' (or_intror eq_refl)). reflexivity.
    + intros H. inversion H as [? ? ? ? ? p E|? ? ? ? ? s Hs Hh]; subst; [congruence|]. exact (none_below j s Hs Hh).
Qed.

Lemma has_key (m : rmap) n : existsb (String.eqb n) (rm_names m) = true <-> rm_get m n <> None.
Proof.
  unfold rm_get, rm_names. rewrite sfind_in_keys, existsb_exists. split.
  - intros (x & Hx & E). apply String.eqb_eq in E. now subst x.
  - intros H. exists n. split; [exact H|apply String.eqb_refl].
Qed.

Lemma put_good (R : jface -> Prop) N ifaces res w j h : good R N ifaces res w -> R j ->
  good R (fun x n => N x n \/ (x = j /\ n = h_name h)) ifaces res (set_obj w (own j) (add_handle (w_obj w (own j)) h)).
Proof.
  intros [A B C D F] Hj.
  assert (O : forall x, w_obj (set_obj w (own j) (add_handle (w_obj w (own j)) h)) (own x) =
              if jface_dec x j then add_handle (w_obj w (own j)) h else w_obj w (own x)).
  { intros x. cbn [set_obj w_obj]. destruct (jface_dec x j) as [->|Nx]; [now rewrite Nat.eqb_refl|].
    destruct (Nat.eqb_spec (own x) (own j)) as [E|_]; [apply own_inj in E; contradiction|reflexivity]. }
  constructor; auto.
  - intros x. rewrite O. destruct (B x) as [H|(H & H1 & H2 & H3)]; [left; exact H|right]. destruct (jface_dec x j) as [->|_]; [contradiction|auto].
  - intros i Hi. cbn [set_obj w_obj]. destruct (Nat.eqb_spec i (own j)) as [E|_]; [now destruct (Hi j)|apply D, Hi].
  - intros x n. rewrite O. destruct (jface_dec x j) as [->|Nx].
    + cbn [add_handle ho_map]. unfold rm_get, rm_register. rewrite sfind_sset.
      destruct (String.eqb_spec n (h_name h)) as [->|Nn]; [split; [auto|discriminate]|].
      specialize (F j n). unfold rm_get in F. rewrite F. intuition.
    + rewrite F. intuition.
Qed.

Lemma add_states_good (R : jface -> Prop) ifaces res var j names : R j -> forall N w, good R N ifaces res w ->
  good R (fun x n => N x n \/ (x = j /\ In n names)) ifaces res (add_states var names (own j) w).
Proof.
  intros Hj. induction names as [|n names IH]; intros N w G; cbn [add_states].
  - eapply good_ext; [| |exact G]; [reflexivity|]. cbn. intuition.
  - destruct (existsb (String.eqb n) (rm_names (ho_map (w_obj w (own j))))) eqn:E.
    + apply has_key in E. rewrite (gd_names _ _ _ _ _ G) in E.
      eapply good_ext; [| |exact (IH _ _ G)]; [reflexivity|]. cbn. intuition. subst. auto.
    + eapply good_ext; [| |exact (IH _ _ (put_good _ _ _ _ _ j (mkHandle n (var n)) G Hj))]; [reflexivity|]. cbn. intuition.
Qed.
Lemma add_commands_good (R : jface -> Prop) ifaces res var j names : R j -> j <> JState -> forall N w, good R N ifaces res w ->
  (forall n, In n names -> N JState n) -> exists w', add_commands var (own JState) names (own j) w = Some w' /\
  good R (fun x n => N x n \/ (x = j /\ In n names)) ifaces res w'.
Proof.
  intros Hj NJ. induction names as [|n names IH]; intros N w G S; cbn [add_commands].
  - exists w. split; [reflexivity|]. eapply good_ext; [| |exact G]; [reflexivity|]. cbn. intuition.
  - destruct (existsb (String.eqb n) (rm_names (ho_map (w_obj w (own j))))) eqn:E.
    + apply has_key in E. rewrite (gd_names _ _ _ _ _ G) in E.
      destruct (IH _ _ G) as (w' & E' & G'); [intros; apply S; now right|]. exists w'. split; [exact E'|].
      eapply good_ext; [| |exact G']; [reflexivity|]. cbn. intuition. subst. auto.
    + destruct (rm_get (ho_map (w_obj w (own JState))) n) eqn:E1.
      2:{ destruct (proj2 (gd_names _ _ _ _ _ G JState n)); [apply S; now left|exact E1]. }
      destruct (IH _ _ (put_good _ _ _ _ _ j (mkHandle n (var n)) G Hj)) as (w' & E' & G'); [intros x Hx; left; apply S; now right|].
      exists w'. split; [exact E'|]. eapply good_ext; [| |exact G']; [reflexivity|]. cbn. intuition.
Qed.

Lemma update_good (R : jface -> Prop) N ifaces res w var j names : good R N ifaces res w -> exists ifaces' res' w',
  update_joints own var j names (Mgr ifaces combo0 num0 res subs0) w = Some (Mgr ifaces' combo0 num0 res' subs0, w') /\
  good (fun x => R x \/ x = JState \/ x = j) (fun x n => N x n \/ ((x = JState \/ x = j) /\ In n names)) ifaces' res' w'.
Proof.
  intros G. unfold update_joints. destruct (provide_good _ _ _ _ _ JState G) as (if1 & re1 & E1 & G1). rewrite E1.
  pose proof (add_states_good _ _ _ (var JState) JState names (or_intror eq_refl) _ _ G1) as G2.
  destruct (jface_dec j JState) as [->|NJ].
  - do 3 eexists. split; [reflexivity|]. eapply good_ext; [| |exact G2]; cbn; intuition.
  - destruct (provide_good _ _ _ _ _ j G2) as (if3 & re3 & E3 & G3).
    destruct (add_commands_good _ _ _ (var j) j names (or_intror eq_refl) NJ _ _ G3) as (w4 & E4 & G4); [auto|].
    exists if3, re3, w4. split.
    + destruct j; [contradiction|..]; rewrite E3, E4; reflexivity.
    + eapply good_ext; [| |exact G4]; cbn; intuition.
Qed.

Lemma update_all_good var us : forall R N ifaces res w, good R N ifaces res w -> exists ifaces' res' w',
  update_all own var us (Mgr ifaces combo0 num0 res subs0) w = Some (Mgr ifaces' combo0 num0 res' subs0, w') /\
  good (fun x => R x \/ asked us x) (fun x n => N x n \/ asked_joint us x n) ifaces' res' w'.
Proof.
  induction us as [|[j names] us IH]; intros R N ifaces res w G; cbn [update_all].
  - exists ifaces, res, w. split; [reflexivity|]. eapply good_ext; [| |exact G].
    + intros x. split; [auto|]. intros [H|(u & [] & _)]. exact H.
    + intros x n. split; [auto|]. intros [H|(u & [] & _)]. exact H.
  - destruct (update_good _ _ _ _ _ var j names G) as (if1 & re1 & w1 & E1 & G1). rewrite E1.
    destruct (IH _ _ _ _ _ G1) as (if2 & re2 & w2 & E2 & G2). exists if2, re2, w2. split; [exact E2|].
    eapply good_ext; [| |exact G2].
    + intros x. unfold asked. split.
      * intros [[H|[->| ->]]|(u & Hu & H)]; [auto|right; exists (j, names); cbn; auto|right; exists (j, names); cbn; auto|right; exists u; cbn; auto].
      * intros [H|(u & [<-|Hu] & H)]; [auto| |right; eauto]. cbn in H. left. intuition.
    + intros x n. unfold asked_joint. split.
      * intros [[H|[[->| ->] Hn]]|(u & Hu & H & Hn)]; [auto|right; exists (j, names); cbn; auto|right; exists (j, names); cbn; auto|right; exists u; cbn; auto].
      * intros [H|(u & [<-|Hu] & H & Hn)]; [auto| |right; eauto]. cbn in H, Hn. left. right. intuition.
Qed.
End Joints.

Lemma top_first T ifaces combo num res subs : iface_resources T (Mgr ifaces combo num res subs) =
  match sfind T res with Some l => l | None => [] end ++ flat_map (iface_resources T) subs.
Proof. reflexivity. Qed.

Lemma update_all_spec kd own var us m w : built kd w m -> unused own m w -> exists m' w',
  update_all own var us m w = Some (m', w') /\
  (forall j, asked us j <-> has_type (jtype j) m') /\
  (forall j, asked us j -> get (jkind j) (jtype j) m' w' = (m', w', Some (own j)) /\
     forall n, rm_get (ho_map (w_obj w' (own j))) n <> None <-> asked_joint us j n) /\
  (forall T, iface_resources T m' = iface_resources T m) /\
  (forall T, (forall j, T <> jtype j) -> leaves T m' = leaves T m /\ (has_type T m' <-> has_type T m)) /\
  (forall i, (forall j, i <> own j) -> w_obj w' i = w_obj w i).
Proof.
  intros Hb [U1 U2 U3 U4]. destruct (built_inv _ _ _ Hb) as (_ & _ & (_ & HT) & _).
  destruct m as [ifaces combo num res subs]. cbn [mifaces mres] in HT.
  assert (NB : forall j s, In s subs -> ~ has_type (jtype j) s) by (intros j s Hs H; apply (U1 j); eapply Sub; eauto).
  assert (FI : forall j, sfind (jtype j) ifaces = None) by (intros j; destruct (sfind (jtype j) ifaces) as [p|] eqn:E; [destruct (U1 j); eapply Own; exact E|reflexivity]).
  assert (FR : forall j, sfind (jtype j) res = None) by (intros j; specialize (HT (jtype j)); rewrite FI in HT; exact HT).
  assert (G : good own ifaces res w (fun _ => False) (fun _ _ => False) ifaces res w).
  { constructor; auto. intros j n. rewrite U4. cbn. intuition. }
  destruct (update_all_good own U2 ifaces combo num res subs w NB var us _ _ _ _ _ G) as (if' & re' & w' & E & G').
  exists (Mgr if' combo num re' subs), w'. split; [exact E|].
  assert (HS : forall j, has_type (jtype j) (Mgr if' combo num re' subs) <-> asked us j).
  { intros j. split.
    - intros H. inversion H as [? ? ? ? ? p Ep|? ? ? ? ? s Hs Hh]; subst; [|now destruct (NB j s Hs)].
      destruct (gd_mine _ _ _ _ _ _ _ _ _ G' j) as [([[]|H'] & _)|(_ & Z & _)]; [exact H'|congruence].
    - intros H. destruct (gd_mine _ _ _ _ _ _ _ _ _ G' j) as [(_ & H' & _)|(Z & _)]; [eapply Own; exact H'|destruct Z; auto]. }
  split; [intros j; symmetry; apply HS|]. split; [|split; [|split]].
  - intros j Hj. split; [exact (get_mine own ifaces combo num res subs w NB _ _ _ _ _ j G' (or_intror Hj))|].
    intros n. rewrite (gd_names _ _ _ _ _ _ _ _ _ G'). intuition.
  - intros T. rewrite !top_first. f_equal.
    destruct (in_dec string_dec T (map jtype [JState; JPosition; JVelocity; JEffort])) as [H|H].
    + apply in_map_iff in H. destruct H as (j & <- & _). rewrite FR. destruct (gd_mine _ _ _ _ _ _ _ _ _ G' j) as [(_ & _ & ->)|(_ & _ & -> & _)]; reflexivity.
    + destruct (gd_other _ _ _ _ _ _ _ _ _ G' T) as (_ & ->); [|reflexivity]. intros j ->. apply H, in_map. destruct j; cbn; auto.
  - intros T NT. destruct (gd_other _ _ _ _ _ _ _ _ _ G' T NT) as (EI & _). cbn [leaves]. rewrite EI. split; [reflexivity|].
    split; intros H; inversion H as [? ? ? ? ? p Ep|? ? ? ? ? s Hs Hh]; subst.
    + rewrite EI in Ep. eapply Own; exact Ep.
    + eapply Sub; eauto.
    + rewrite <- EI in Ep. eapply Own; exact Ep.
    + eapply Sub; eauto.
  - exact (gd_objs _ _ _ _ _ _ _ _ _ G').
Qed.
