(** Managers built in an orderly way: lookups and listings. *)
From Verif Require Import HwTypes SMap SMapProofs HwModel HwSpec HwProofs HwMgr.

Lemma wfm_is_registry m : wfm m -> exists hs, m = registry hs.
Proof.
  intros [S K]. exists (map snd m). apply smap_ext; [exact S|apply wfm_registry|]. intros n.
  change (sfind n (registry (map snd m))) with (rm_get (registry (map snd m)) n). rewrite registry_get.
  assert (KK : forall k h, In (k, h) m -> h_name h = k) by (intros k h H; apply K, sfind_in; auto).
  destruct (registered_last (map snd m) n) as [h|] eqn:E.
  - unfold registered_last in E. apply find_some in E as [E1 E2]. apply String.eqb_eq in E2. apply in_rev in E1.
    apply in_map_iff in E1 as ([k h'] & E & Hin). cbn in E. subst h'. rewrite (KK k h Hin) in E2. subst k. apply sfind_in; auto.
  - destruct (sfind n m) as [h|] eqn:F; [|reflexivity]. exfalso. apply sfind_in in F; [|exact S].
    apply (proj2 (registered_last_iff (map snd m) n)); [|exact E]. exists h. split; [|auto].
    apply in_map_iff. exists (n, h). auto.
Qed.
Lemma world_ok_wf w : world_ok w <-> world_wf w.
Proof.
  split; intros H i.
  - destruct (H i) as (hs & ->). apply wfm_registry.
  - apply wfm_is_registry, H.
Qed.

Definition mifaces (m : mgr) := match m with Mgr ifaces _ _ _ _ => ifaces end.
Definition mres (m : mgr) := match m with Mgr _ _ _ res _ => res end.
Lemma get_top k T m w m' w' p : get k T m w = (m', w', p) -> mifaces m' = mifaces m /\ mres m' = mres m.
Proof.
  destruct m as [ifaces combo num res subs]. rewrite get_eq. intros H.
  destruct (sfind T ifaces) as [[j|]|]; [|injection H as <- <- <-; auto|].
  all: cbv iota beta zeta in H; destruct (gets k T subs w) as [[subs' w1] found]; destruct (combine _ _ _ _ _ _) as [[[c n] w2] q]; injection H as <- <- <-; auto.
Qed.

Lemma flat_get_top m T : flat_get m T = match sfind T (mifaces m) with Some p => p | None => None end.
Proof. destruct m; reflexivity. Qed.

Definition names_at (w : world) (i : nat) : list string := rm_names (ho_map (w_obj w i)).
Definition top_ok (kd : string -> tkind) (w : world) (m : mgr) : Prop :=
  ssorted (mifaces m) /\ forall T,
  match sfind T (mifaces m) with
  | None => sfind T (mres m) = None
  | Some None => False
  | Some (Some i) => sfind T (mres m) = Some (if tk_rm (kd T) then names_at w i else [])
  end.
Definition res_ok (kd : string -> tkind) (w : world) (m : mgr) : Prop :=
  forall T, iface_resources T m = if tk_rm (kd T) then flat_map (names_at w) (leaves T m) else [].

Lemma ok_top_lt k T w m i : ok k T w m -> sfind T (mifaces m) = Some (Some i) -> i < w_next w.
Proof. intros H E. inversion H as [? ? ? ? ? H1 H2 H3]; subst. cbn in E. destruct (H1 _ E) as (j & [= ->] & Hj). exact Hj. Qed.

Lemma flat_map_ext_in {A B} (f g : A -> list B) l : (forall a, In a l -> f a = g a) -> flat_map f l = flat_map g l.
Proof. intros H. induction l as [|a l IH]; [reflexivity|]. cbn. rewrite (H a) by (left; reflexivity). rewrite IH; [reflexivity|]. intros x Hx. apply H. right; exact Hx. Qed.

Lemma names_at_le w w' i : world_le w w' -> i < w_next w -> names_at w' i = names_at w i.
Proof. intros [_ H] Hi. unfold names_at. rewrite (H i Hi). reflexivity. Qed.

Lemma move_world kd w w' m : world_le w w' -> (forall T, ok (kd T) T w m) -> top_ok kd w m -> res_ok kd w m ->
  (forall T, ok (kd T) T w' m) /\ top_ok kd w' m /\ res_ok kd w' m.
Proof.
  intros Hw Ho [Hs Ht] Hr. split; [intros T; eapply ok_mono; eauto|]. split; [split; [exact Hs|]|].
  - intros T. specialize (Ht T). destruct (sfind T (mifaces m)) as [[i|]|] eqn:E; auto. rewrite Ht.
    destruct (tk_rm (kd T)); [|reflexivity]. rewrite (names_at_le w w' i Hw); [reflexivity|]. eapply ok_top_lt; eauto.
  - intros T. rewrite (Hr T). destruct (tk_rm (kd T)); [|reflexivity]. apply flat_map_ext_in. intros i Hi. symmetry. apply names_at_le; auto.
    pose proof (ok_leaves _ _ _ _ (Ho T)) as Hl. rewrite Forall_forall in Hl. auto.
Qed.

Lemma ok_new k T w : ok k T w mgr_new.
Proof. constructor; [discriminate|constructor|exact I]. Qed.

Lemma ok_register kd w m T i m' : i < w_next w -> flat_get m T = None ->
  register_interface (kd T) w m T (Some i) = Some m' -> forall T', ok (kd T') T' w m -> ok (kd T') T' w m'.
Proof.
  intros Hi Hf Hr T' Ho.
  assert (Hm : exists res, m' = match m with Mgr ifaces combo num _ subs => Mgr (sset T (Some i) ifaces) combo num res subs end).
  { destruct m as [ifaces combo num res subs]. cbn in Hr. destruct (tk_rm (kd T)); [|destruct (sfind T res)]; injection Hr as <-; eauto. }
  destruct Hm as (res' & ->). inversion Ho as [ifaces combo num res subs H1 H2 H3]; subst. cbn in Hf.
  constructor; auto.
  - intros p. rewrite sfind_sset. destruct (String.eqb_spec T' T) as [->|]; [|apply H1]. intros [= <-]. eauto.
  - unfold own_leaves in *. rewrite sfind_sset. destruct (String.eqb_spec T' T) as [->|N]; [|exact H3].
    assert (E : sfind T ifaces = None).
    { destruct (sfind T ifaces) as [p|] eqn:E; [|reflexivity]. destruct (H1 p eq_refl) as (j & -> & _). discriminate. }
    rewrite E in H3. cbn [app] in *. destruct (sfind T combo) as [c|], (sfind T num) as [n|]; auto.
    destruct H3 as (D1 & D2 & D3 & D4). cbn [length]. repeat split; auto; intros; lia.
Qed.

Lemma ok_sub k T w m s : ok k T w m -> ok k T w s -> ok k T w (register_manager m s).
Proof.
  intros Hm Hs. inversion Hm as [ifaces combo num res subs H1 H2 H3]; subst. cbn [register_manager]. constructor; auto.
  - apply Forall_app; auto.
  - unfold sub_leaves in *. rewrite map_app, filter_app. cbn [map filter].
    destruct (sfind T combo) as [c|], (sfind T num) as [n|]; auto. destruct H3 as (D1 & D2 & D3 & D4).
    destruct (leaves T s) as [|x xs]; cbn [nonempty].
    + rewrite app_nil_r. auto.
    + rewrite !app_length in *. cbn [length]. repeat split; auto; intros; lia.
Qed.

Lemma built_inv kd w m : built kd w m -> world_ok w /\ (forall T, ok (kd T) T w m) /\ top_ok kd w m /\ res_ok kd w m.
Proof.
  induction 1 as [w Hw|w m T i m' Hb IH Hf Hi Hr|w m s Hb IH Hs IHs|w m T m' w' p Hb IH Hg|w w' m Hb IH Hw Hw'].
  - split; [exact Hw|]. split; [intros; apply ok_new|]. split; [split; [constructor|reflexivity]|]. intros T. cbn. destruct (tk_rm (kd T)); reflexivity.
  - destruct IH as (Hw & Ho & [Hs Ht] & Hres). split; [exact Hw|]. split; [intros T'; eapply ok_register; eauto|].
    assert (E : sfind T (mifaces m) = None).
    { rewrite flat_get_top in Hf. specialize (Ht T). destruct (sfind T (mifaces m)) as [[j|]|]; [discriminate|contradiction|reflexivity]. }
    assert (Er : sfind T (mres m) = None) by (specialize (Ht T); rewrite E in Ht; exact Ht).
    assert (Hm : m' = match m with Mgr ifaces combo num res subs => Mgr (sset T (Some i) ifaces) combo num (sset T (if tk_rm (kd T) then names_at w i else []) res) subs end).
    { destruct m as [ifaces combo num res subs]. cbn in Hr, Er. destruct (tk_rm (kd T)); [|rewrite Er in Hr]; injection Hr as <-; reflexivity. }
    destruct m as [ifaces combo num res subs]. cbn [mifaces mres] in *. subst m'. split.
    + split; [apply sset_sorted; exact Hs|]. intros T'. cbn [mifaces mres]. rewrite !sfind_sset.
      destruct (String.eqb_spec T' T) as [->|N]; [reflexivity|apply Ht].
    + intros T'. specialize (Hres T'). cbn [iface_resources leaves] in *. rewrite !sfind_sset.
      destruct (String.eqb_spec T' T) as [->|N]; [|exact Hres]. rewrite Er, E in Hres. cbn [app] in Hres. rewrite Hres.
      destruct (tk_rm (kd T)); reflexivity.
  - destruct IH as (Hw & Ho & Ht & Hres). destruct IHs as (_ & Ho' & _ & Hres'). split; [exact Hw|]. split; [intros T; apply ok_sub; auto|].
    destruct m as [ifaces combo num res subs]. split; [exact Ht|]. intros T. specialize (Hres T). specialize (Hres' T).
    cbn [register_manager iface_resources leaves] in *. rewrite !flat_map_app. cbn [flat_map]. rewrite !app_nil_r, !app_assoc, Hres, Hres'.
    destruct (tk_rm (kd T)); [|reflexivity]. rewrite !flat_map_app. reflexivity.
  - destruct IH as (Hw & Ho & Ht & Hres). destruct (get_frame _ _ _ _ _ _ _ Hg) as (A1 & A2 & (A3 & A4 & _) & A5).
    destruct (move_world kd w w' m A1 Ho Ht Hres) as (_ & Ht' & Hres').
    split; [apply world_ok_wf, A2, world_ok_wf, Hw|]. split.
    + intros T'. destruct (String.eqb_spec T' T) as [->|N]; [|apply A5; auto].
      destruct (tk_rm (kd T)) eqn:Ek.
      * apply world_ok_wf in Hw. apply (get_ok _ _ _ _ _ _ _ Ek Hw (Ho T) Hg).
      * rewrite (get_nonrm _ _ _ _ Ek (Ho T)) in Hg. injection Hg as <- <- <-. apply Ho.
    + destruct (get_top _ _ _ _ _ _ _ Hg) as [E1 E2]. split.
      * destruct Ht' as [Hs Ht']. split; [rewrite E1; exact Hs|]. rewrite E1, E2. exact Ht'.
      * intros T'. rewrite A3, A4. apply Hres'.
  - destruct IH as (_ & Ho & Ht & Hres). split; [exact Hw'|]. apply (move_world kd w w' m Hw Ho Ht Hres).
Qed.

(** Resources of a merged interface, handle by handle. *)
Lemma merged_find w l n : world_ok w -> rm_get (merged w l) n = first_some (fun i => rm_get (ho_map (w_obj w i)) n) (rev l).
Proof.
  intros Hw. unfold rm_get, merged. rewrite concat_find.
  - rewrite <- map_rev, first_map. destruct (first_some _ (rev l)); reflexivity.
  - apply Forall_forall. intros m Hm. apply in_map_iff in Hm as (i & <- & _). apply world_ok_wf in Hw. apply Hw.
Qed.

Lemma lookup_rm kd T w m m' w' p : built kd w m -> tk_rm (kd T) = true -> get (kd T) T m w = (m', w', p) ->
  (p = None <-> leaves T m = []) /\
  (forall c, p = Some c -> c < w_next w' /\
     (forall n, rm_get (ho_map (w_obj w' c)) n = first_some (fun i => rm_get (ho_map (w_obj w i)) n) (rev (leaves T m))) /\
     (forall j, leaves T m = [j] -> c = j)) /\
  world_le w w' /\ built kd w' m' /\ (forall T', leaves T' m' = leaves T' m).
Proof.
  intros Hb Hk Hg. destruct (built_inv _ _ _ Hb) as (Hw & Ho & _ & _). pose proof (proj1 (world_ok_wf w) Hw) as Hwf.
  destruct (get_ok _ _ _ _ _ _ _ Hk Hwf (Ho T) Hg) as (A1 & A2 & A3 & A4 & A5).
  destruct (get_frame _ _ _ _ _ _ _ Hg) as (_ & _ & (A6 & _) & _).
  repeat split.
  - intros ->. exact A4.
  - intros E. destruct p as [c|]; [|reflexivity]. destruct A4 as (N & _). congruence.
  - subst p. apply A4.
  - intros n. subst p. destruct A4 as (N & C & D & _). rewrite D, merged_le with (w := w); [apply merged_find; exact Hw|exact A1|]. eapply ok_leaves; eauto.
  - subst p. apply A4.
  - apply A1.
  - apply A1.
  - eapply BGet; eauto.
  - exact A6.
Qed.

Lemma lookup_single kd T w m : built kd w m -> tk_rm (kd T) = false -> get (kd T) T m w = (m, w, sole T m).
Proof. intros Hb Hk. destruct (built_inv _ _ _ Hb) as (_ & Ho & _). apply get_nonrm; auto. Qed.

Lemma sole_none T m : leaves T m = [] -> sole T m = None.
Proof.
  induction m as [ifaces combo num res subs IH] using mgr_ind'. cbn [leaves sole]. intros H. apply app_eq_nil in H as [H1 H2].
  assert (E : flat_map (fun s => match sole T s with Some i => [i] | None => [] end) subs = []).
  { clear H1. induction IH as [|s subs Hs IH IHs]; [reflexivity|]. cbn in *. apply app_eq_nil in H2 as [H2 H3]. rewrite (Hs H2), (IHs H3). reflexivity. }
  rewrite E. destruct (sfind T ifaces) as [[i|]|]; [discriminate| |]; reflexivity.
Qed.
Lemma sole_in T m i : sole T m = Some i -> In i (leaves T m).
Proof.
  induction m as [ifaces combo num res subs IH] using mgr_ind'. cbn [leaves sole]. intros H. apply in_or_app.
  assert (E : forall j, In j (flat_map (fun s => match sole T s with Some i => [i] | None => [] end) subs) -> j = i -> In i (flat_map (leaves T) subs)).
  { intros j Hj ->. apply in_flat_map in Hj as (s & Hs & Hj). apply in_flat_map. exists s. split; [exact Hs|].
    rewrite Forall_forall in IH. apply (IH s Hs). destruct (sole T s); [|contradiction]. destruct Hj as [->|[]]. reflexivity. }
  destruct (sfind T ifaces) as [[j|]|]; [|discriminate|].
  - destruct (flat_map _ subs) as [|? ?] eqn:F in H; [|discriminate]. injection H as ->. left; left; reflexivity.
  - cbn [app] in H. destruct (flat_map _ subs) as [|x [|? ?]] eqn:F in H; try discriminate. injection H as ->. right.
    apply (E i); [rewrite F; left; reflexivity|reflexivity].
Qed.
Lemma sole_one kd T w m i : (forall T, ok (kd T) T w m) -> leaves T m = [i] -> sole T m = Some i.
Proof.
  intros Ho. specialize (Ho T). revert Ho i. generalize (kd T) as k. intros k.
  induction m as [ifaces combo num res subs IH] using mgr_ind'. cbn [leaves sole]. intros Ho i H. inversion Ho as [? ? ? ? ? H1 H2 H3]; subst.
  assert (E0 : flat_map (leaves T) subs = [] -> flat_map (fun s => match sole T s with Some i => [i] | None => [] end) subs = []).
  { clear. induction subs as [|s subs IHs]; [reflexivity|]. cbn. intros E. apply app_eq_nil in E as [E1 E2]. rewrite (sole_none T s E1), (IHs E2). reflexivity. }
  destruct (sfind T ifaces) as [q|] eqn:Eq.
  - destruct (H1 _ eq_refl) as (j & -> & Hj). cbn in H. injection H as -> H. rewrite (E0 H). reflexivity.
  - cbn [app] in *.
    assert (E1 : flat_map (fun s => match sole T s with Some i => [i] | None => [] end) subs = [i]).
    { clear - IH H2 H. induction subs as [|s subs IHs]; [discriminate|]. inversion IH as [|? ? I1 I2]; inversion H2 as [|? ? O1 O2]; subst. cbn in *.
      destruct (leaves T s) as [|x [|? ?]] eqn:El; [| |discriminate].
      - rewrite (sole_none T s El). apply IHs; auto.
      - cbn in H. injection H as -> H. rewrite (I1 O1 i eq_refl).
        assert (E0 : flat_map (fun s => match sole T s with Some i => [i] | None => [] end) subs = []).
        { clear - H. induction subs as [|s subs IHs]; [reflexivity|]. cbn in *. apply app_eq_nil in H as [E1 E2]. rewrite (sole_none T s E1), (IHs E2). reflexivity. }
        rewrite E0. reflexivity. }
    rewrite E1. reflexivity.
Qed.

Lemma exposed_iff kd T w m m' w' p : built kd w m -> get (kd T) T m w = (m', w', p) -> (p <> None <-> exposed kd m T).
Proof.
  intros Hb Hg. unfold exposed. destruct (tk_rm (kd T)) eqn:Hk.
  - destruct (lookup_rm _ _ _ _ _ _ _ Hb Hk Hg) as (E & _). rewrite E. tauto.
  - rewrite (lookup_single _ _ _ _ Hb Hk) in Hg. injection Hg as <- <- <-. tauto.
Qed.

(** ** listings *)
Lemma add_new_in names : forall out n, In n (add_new out names) <-> In n out \/ In n names.
Proof.
  unfold add_new. induction names as [|a names IH]; intros out n; cbn [fold_left]; [cbn; tauto|]. rewrite IH.
  destruct (existsb (String.eqb a) out) eqn:E.
  - apply existsb_exists in E as (x & Hx & E). apply String.eqb_eq in E. subst x. cbn. split; [tauto|]. intros [H|[->|H]]; auto.
  - rewrite in_app_iff. cbn. tauto.
Qed.
Lemma add_new_nodup names : forall out, NoDup out -> NoDup (add_new out names).
Proof.
  unfold add_new. induction names as [|a names IH]; intros out H; cbn [fold_left]; [exact H|]. apply IH.
  destruct (existsb (String.eqb a) out) eqn:E; [exact H|].
  assert (N : ~ In a out). { intros Hin. assert (X : existsb (String.eqb a) out = true) by (apply existsb_exists; exists a; split; [exact Hin|apply String.eqb_refl]). congruence. }
  clear - H N. induction out as [|x out IH]; cbn; [repeat constructor; auto|]. inversion H; subst. constructor.
  - rewrite in_app_iff. cbn. intros [A|[A|[]]]; [auto|]. subst. apply N. left; reflexivity.
  - apply IH; auto. intros A. apply N. right; exact A.
Qed.
Lemma names_in m : forall T, In T (im_names m) <-> has_type T m.
Proof.
  induction m as [ifaces combo num res subs IH] using mgr_ind'. intros T. cbn [im_names].
  assert (H : forall out, In T (fold_left (fun out s => add_new out (im_names s)) subs out) <-> In T out \/ exists s, In s subs /\ has_type T s).
  { induction IH as [|s subs Hs IH IHs]; intros out; cbn [fold_left].
    - split; [auto|]. intros [H|(s & [] & _)]. exact H.
    - rewrite IHs, add_new_in, Hs. split.
      + intros [[H|H]|(x & Hx & H)]; [auto|right; exists s; split; [left; reflexivity|exact H]|right; exists x; split; [right; exact Hx|exact H]].
      + intros [H|(x & [<-|Hx] & H)]; [auto|auto|right; eauto]. }
  rewrite H, <- sfind_in_keys. split.
  - intros [N|(s & Hs & Ht)]; [|eapply Sub; eauto]. destruct (sfind T ifaces) as [p|] eqn:E; [|congruence]. eapply Own; exact E.
  - intros Ht. inversion Ht as [? ? ? ? ? p E|? ? ? ? ? s Hs Hh]; subst; [left; congruence|right; eauto].
Qed.
Lemma names_nodup kd w m : built kd w m -> NoDup (im_names m).
Proof.
  intros Hb. destruct (built_inv _ _ _ Hb) as (_ & _ & [Hs _] & _). destruct m as [ifaces combo num res subs]. cbn in *.
  apply ssorted_nodup in Hs. clear Hb. revert Hs. generalize (skeys ifaces). induction subs as [|s subs IH]; intros l H; cbn; [exact H|]. apply IH, add_new_nodup, H.
Qed.
Lemma resources_of kd w m T : built kd w m -> tk_rm (kd T) = true ->
  iface_resources T m = flat_map (fun i => rm_names (ho_map (w_obj w i))) (leaves T m).
Proof. intros Hb Hk. destruct (built_inv _ _ _ Hb) as (_ & _ & _ & Hr). rewrite (Hr T), Hk. reflexivity. Qed.
Lemma has_type_leaves kd w m T : built kd w m -> (has_type T m <-> leaves T m <> []).
Proof.
  intros Hb. destruct (built_inv _ _ _ Hb) as (_ & Ho & _ & _). specialize (Ho T). clear Hb. revert Ho. generalize (kd T) as k. intros k.
  induction m as [ifaces combo num res subs IH] using mgr_ind'. intros Ho. inversion Ho as [? ? ? ? ? H1 H2 H3]; subst. cbn [leaves]. split.
  - intros Ht. inversion Ht as [? ? ? ? ? p E|? ? ? ? ? s Hs Hh]; subst.
    + destruct (H1 _ E) as (j & -> & _). rewrite E. discriminate.
    + rewrite Forall_forall in IH, H2. apply (IH s Hs (H2 s Hs)) in Hh. intros E. apply app_eq_nil in E as [_ E]. apply Hh.
      clear - Hs E. induction subs as [|x subs IHs]; [contradiction|]. cbn in E. apply app_eq_nil in E as [E1 E2]. destruct Hs as [<-|Hs]; auto.
  - intros N. destruct (sfind T ifaces) as [p|] eqn:E; [eapply Own; exact E|]. cbn [app] in N.
    assert (X : exists s, In s subs /\ leaves T s <> []).
    { clear - N. induction subs as [|x subs IHs]; [contradiction|]. cbn in N. destruct (leaves T x) eqn:El.
      - destruct (IHs N) as (s & Hs & Hn). exists s. split; [right; exact Hs|exact Hn].
      - exists x. split; [left; reflexivity|congruence]. }
    destruct X as (s & Hs & Hn). eapply Sub; [exact Hs|]. rewrite Forall_forall in IH, H2. apply (IH s Hs (H2 s Hs)). exact Hn.
Qed.
