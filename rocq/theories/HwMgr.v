(** Proofs about interface managers. *)
From Verif Require Import HwTypes SMap SMapProofs HwModel HwSpec HwProofs.

Lemma mgr_ind' (P : mgr -> Prop) :
  (forall ifaces combo num res subs, Forall P subs -> P (Mgr ifaces combo num res subs)) -> forall m, P m.
Proof.
  intros H. fix IH 1. intros [ifaces combo num res subs]. apply H.
  induction subs as [|s subs IHs]; constructor; [apply IH|exact IHs].
Qed.

(** The inner loop of [get]. *)
Definition gets (k : tkind) (T : string) : list mgr -> world -> list mgr * world * list nat :=
  fix gets (l : list mgr) (w : world) : list mgr * world * list nat :=
  match l with
  | [] => ([], w, [])
  | x :: l' =>
      let '(x', w1, r) := get k T x w in
      let '(l2, w2, rs) := gets l' w1 in
      (x' :: l2, w2, (match r with Some i => [i] | None => [] end) ++ rs)
  end.
Lemma get_eq k T ifaces combo num res subs w : get k T (Mgr ifaces combo num res subs) w =
  match sfind T ifaces with
  | Some None => (Mgr ifaces combo num res subs, w, None)
  | own =>
      let '(subs', w1, found) := gets k T subs w in
      let mine := match own with Some (Some i) => [i] | _ => [] end in
      let '(combo', num', w2, p) := combine k T w1 combo num (mine ++ found) in
      (Mgr ifaces combo' num' res subs', w2, p)
  end.
Proof. reflexivity. Qed.

Definition nonempty {A} (l : list A) : bool := match l with [] => false | _ => true end.
Lemma concat_filter {A} (ls : list (list A)) : concat (filter nonempty ls) = concat ls.
Proof. induction ls as [|l ls IH]; [reflexivity|]. destruct l; simpl; [exact IH|]. rewrite IH; reflexivity. Qed.

Definition sub_leaves (T : string) (subs : list mgr) : list (list nat) := filter nonempty (map (leaves T) subs).
Definition own_leaf (T : string) (ifaces : smap (option nat)) : list nat := match sfind T ifaces with Some (Some i) => [i] | _ => [] end.
Definition own_leaves (T : string) (ifaces : smap (option nat)) : list (list nat) := match sfind T ifaces with Some (Some i) => [[i]] | _ => [] end.

Lemma leaves_eq T ifaces combo num res subs :
  leaves T (Mgr ifaces combo num res subs) = concat (own_leaves T ifaces ++ sub_leaves T subs).
Proof.
  unfold sub_leaves, own_leaves. rewrite concat_app, concat_filter. cbn [leaves]. rewrite flat_map_concat_map.
  destruct (sfind T ifaces) as [[i|]|]; reflexivity.
Qed.

Inductive ok (k : tkind) (T : string) (w : world) : mgr -> Prop :=
| Ok ifaces combo num res subs :
    (forall p, sfind T ifaces = Some p -> exists j, p = Some j /\ j < w_next w) ->
    Forall (ok k T w) subs ->
    (match sfind T combo, sfind T num with
     | None, None => True
     | Some c, Some n =>
         tk_rm k = true /\ c < w_next w /\ n <= length (own_leaves T ifaces ++ sub_leaves T subs) /\
         (n = length (own_leaves T ifaces ++ sub_leaves T subs) ->
          ho_map (w_obj w c) = merged w (concat (own_leaves T ifaces ++ sub_leaves T subs)))
     | _, _ => False
     end) ->
    ok k T w (Mgr ifaces combo num res subs).

Lemma ok_leaves k T w m : ok k T w m -> Forall (fun i => i < w_next w) (leaves T m).
Proof.
  induction m as [ifaces combo num res subs IH] using mgr_ind'. intros H. inversion H as [? ? ? ? ? H1 H2 H3]; subst.
  cbn [leaves]. apply Forall_app. split.
  - destruct (sfind T ifaces) as [[i|]|] eqn:E; constructor; auto. destruct (H1 _ eq_refl) as (j & [= ->] & Hj). exact Hj.
  - clear H H1 H3. induction H2 as [|s subs Hs Hsubs IHs]; [constructor|]. inversion IH; subst. cbn. apply Forall_app. auto.
Qed.

Lemma merged_le w w' l : world_le w w' -> Forall (fun i => i < w_next w) l -> merged w' l = merged w l.
Proof.
  intros [_ Hw] Hl. unfold merged. f_equal. induction Hl as [|i l Hi Hl IH]; [reflexivity|]. cbn. rewrite (Hw i Hi), IH. reflexivity.
Qed.
Lemma world_le_refl w : world_le w w. Proof. split; auto. Qed.
Lemma world_le_trans a b c : world_le a b -> world_le b c -> world_le a c.
Proof. intros [H1 H2] [H3 H4]. split; [lia|]. intros i Hi. rewrite H4 by lia. auto. Qed.

Lemma ok_mono k T w w' m : world_le w w' -> ok k T w m -> ok k T w' m.
Proof.
  intros Hw. induction m as [ifaces combo num res subs IH] using mgr_ind'. intros H. pose proof (ok_leaves k T w _ H) as Hl.
  rewrite leaves_eq in Hl.
  inversion H as [? ? ? ? ? H1 H2 H3]; subst.
  constructor.
  - intros p Hp. destruct (H1 p Hp) as (j & -> & Hj). exists j. split; [reflexivity|]. destruct Hw; lia.
  - clear - IH H2. induction H2; inversion IH; subst; constructor; auto.
  - destruct (sfind T combo) as [c|], (sfind T num) as [n|]; auto. destruct H3 as (A & B & C & D).
    repeat split; auto; [destruct Hw; lia|]. intros E. rewrite (proj2 Hw) by exact B. rewrite (D E). symmetry. apply merged_le; auto.
Qed.

Definition world_wf (w : world) : Prop := forall i, wfm (ho_map (w_obj w i)).

Lemma merged_wfm w l : wfm (merged w l).
Proof. apply wfm_concat, wfm_nil. Qed.

(** What a lookup returns for the interfaces [ls]. *)
Definition answers (w : world) (p : option nat) (ls : list nat) : Prop :=
  match p with
  | None => ls = []
  | Some c => ls <> [] /\ c < w_next w /\ ho_map (w_obj w c) = merged w ls /\ (forall j, ls = [j] -> c = j)
  end.

Lemma answers_le w w' p ls : world_le w w' -> Forall (fun i => i < w_next w) ls -> answers w p ls -> answers w' p ls.
Proof.
  intros Hw Hl. destruct p as [c|]; cbn; auto. intros (A & B & C & D). repeat split; auto; [destruct Hw; lia|].
  rewrite (proj2 Hw) by exact B. rewrite C. symmetry; apply merged_le; auto.
Qed.

Lemma concat_merged w found lls : world_wf w ->
  Forall2 (fun i ls => ho_map (w_obj w i) = merged w ls) found lls ->
  rm_concat (map (fun i => ho_map (w_obj w i)) found) [] = merged w (concat lls).
Proof.
  intros Hw H.
  assert (E : map (fun i => ho_map (w_obj w i)) found = map (fun l => rm_concat l []) (map (map (fun i => ho_map (w_obj w i))) lls)).
  { induction H as [|i ls found lls Hi H IH]; [reflexivity|]. cbn. rewrite Hi, IH. reflexivity. }
  rewrite E, concat_flat.
  - unfold merged. rewrite concat_map. reflexivity.
  - apply Forall_forall. intros l Hl. apply in_map_iff in Hl as (l0 & <- & _). apply Forall_forall. intros m Hm.
    apply in_map_iff in Hm as (i & <- & _). apply Hw.
Qed.

Lemma new_le w m : world_le w (new_obj w m).
Proof. split; cbn; [lia|]. intros i Hi. destruct (Nat.eqb_spec i (w_next w)); [lia|reflexivity]. Qed.

Definition found_ok (w : world) (i : nat) (ls : list nat) : Prop :=
  ls <> [] /\ i < w_next w /\ ho_map (w_obj w i) = merged w ls /\ (forall j, ls = [j] -> i = j).

Lemma found_le w w' i ls : world_le w w' -> Forall (fun i => i < w_next w) ls -> found_ok w i ls -> found_ok w' i ls.
Proof. intros H1 H2 H3. exact (answers_le w w' (Some i) ls H1 H2 H3). Qed.

Lemma f2_len {A B} (R : A -> B -> Prop) a b : Forall2 R a b -> length a = length b.
Proof. induction 1; simpl; congruence. Qed.
Lemma f2_imp {A B} (R S : A -> B -> Prop) a b : (forall x y, R x y -> S x y) -> Forall2 R a b -> Forall2 S a b.
Proof. induction 2; constructor; auto. Qed.
Lemma f2_imp_r {A B} (Q : B -> Prop) (R S : A -> B -> Prop) a b : (forall x y, Q y -> R x y -> S x y) -> Forall Q b -> Forall2 R a b -> Forall2 S a b.
Proof. intros H F. induction 1; inversion F; subst; constructor; auto. Qed.

(** The combination step. *)
Lemma combine_ok k T w combo num found lls combo' num' w' p :
  tk_rm k = true -> world_wf w -> Forall (Forall (fun i => i < w_next w)) lls ->
  Forall2 (found_ok w) found lls ->
  (match sfind T combo, sfind T num with
   | None, None => True
   | Some c, Some n => tk_rm k = true /\ c < w_next w /\ n <= length lls /\ (n = length lls -> ho_map (w_obj w c) = merged w (concat lls))
   | _, _ => False
   end) ->
  combine k T w combo num found = (combo', num', w', p) ->
  world_le w w' /\ world_wf w' /\ answers w' p (concat lls) /\
  (match sfind T combo', sfind T num' with
   | None, None => True
   | Some c, Some n => tk_rm k = true /\ c < w_next w' /\ n <= length lls /\ (n = length lls -> ho_map (w_obj w' c) = merged w' (concat lls))
   | _, _ => False
   end).
Proof.
  intros Hk Hw Hl Hf Hc Hcomb.
  pose proof (f2_len _ _ _ Hf) as Hlen.
  assert (Hm : rm_concat (map (fun i => ho_map (w_obj w i)) found) [] = merged w (concat lls)).
  { apply concat_merged; [exact Hw|]. eapply f2_imp; [|exact Hf]. intros x y (_ & _ & H & _). exact H. }
  assert (Hne : forall ls, In ls lls -> ls <> []).
  { clear -Hf. induction Hf as [|i ls found lls Hi H IH]; intros x Hx; [contradiction|]. destruct Hx as [<-|Hx]; [apply Hi|auto]. }
  unfold combine in Hcomb. destruct found as [|i [|i2 found]].
  - injection Hcomb as <- <- <- <-. inversion Hf; subst. split; [apply world_le_refl|]. split; [exact Hw|]. split; [reflexivity|exact Hc].
  - injection Hcomb as <- <- <- <-. inversion Hf as [|? ls ? ? Hi Hf']; subst. inversion Hf'; subst.
    split; [apply world_le_refl|]. split; [exact Hw|]. split; [|exact Hc]. cbn [concat]. rewrite app_nil_r. exact Hi.
  - set (fnd := i :: i2 :: found) in *.
    assert (Hbig : forall c, concat lls <> [] /\ (forall j, concat lls = [j] -> c = j)).
    { intros c. destruct lls as [|l1 [|l2 lls]]; try discriminate.
      pose proof (Hne l1 (or_introl eq_refl)) as N1. pose proof (Hne l2 (or_intror (or_introl eq_refl))) as N2.
      destruct l1 as [|a l1]; [congruence|]. destruct l2 as [|b l2]; [congruence|].
      split; [discriminate|]. intros j E. cbn in E. injection E as _ E. destruct l1; discriminate. }
    clearbody fnd.
    assert (Hfresh : (sset T (w_next w) combo, sset T (length fnd) num,
           new_obj w (rm_concat (map (fun i => ho_map (w_obj w i)) fnd) []), Some (w_next w)) = (combo', num', w', p) ->
       world_le w w' /\ world_wf w' /\ answers w' p (concat lls) /\
      (match sfind T combo', sfind T num' with
       | None, None => True
       | Some c, Some n => tk_rm k = true /\ c < w_next w' /\ n <= length lls /\ (n = length lls -> ho_map (w_obj w' c) = merged w' (concat lls))
       | _, _ => False
       end)).
    { intros [= <- <- <- <-]. rewrite !sfind_sset, String.eqb_refl.
      assert (Hle := new_le w (rm_concat (map (fun i => ho_map (w_obj w i)) fnd) [])).
      assert (Hcat : Forall (fun i => i < w_next w) (concat lls)).
      { clear -Hl. induction Hl; cbn; [constructor|apply Forall_app; auto]. }
      assert (Hobj : ho_map (w_obj (new_obj w (rm_concat (map (fun i => ho_map (w_obj w i)) fnd) [])) (w_next w)) =
         merged (new_obj w (rm_concat (map (fun i => ho_map (w_obj w i)) fnd) [])) (concat lls)).
      { rewrite (merged_le _ _ _ Hle Hcat). cbn [new_obj w_obj]. rewrite Nat.eqb_refl. exact Hm. }
      split; [exact Hle|]. split.
      { intros j. cbn. destruct (Nat.eqb j (w_next w)); [|apply Hw]. cbn. apply wfm_concat, wfm_nil. }
      destruct (Hbig (w_next w)) as [Hb1 Hb2].
      split; [cbn [answers]; repeat split; auto; cbn; lia|]. repeat split; auto; cbn; lia. }
    rewrite Hk in Hcomb.
    destruct (sfind T combo) as [c|] eqn:Ec, (sfind T num) as [n|] eqn:En; try contradiction.
    + destruct Hc as (C1 & C2 & C3 & C4). destruct (Nat.eqb_spec n (length fnd)) as [E|E]; [|apply Hfresh; exact Hcomb].
      injection Hcomb as <- <- <- <-. rewrite Ec, En. split; [apply world_le_refl|]. split; [exact Hw|]. split; [|auto].
      destruct (Hbig c) as [Hb1 Hb2]. cbn. repeat split; auto. apply C4. lia.
    + apply Hfresh; exact Hcomb.
Qed.

Lemma get_ok k T m : forall w m' w' p, tk_rm k = true -> world_wf w -> ok k T w m -> get k T m w = (m', w', p) ->
  world_le w w' /\ world_wf w' /\ ok k T w' m' /\ answers w' p (leaves T m) /\ leaves T m' = leaves T m.
Proof.
  induction m as [ifaces combo num res subs IH] using mgr_ind'. intros w m' w' p Hk Hw Hok Hg.
  pose proof (ok_leaves k T w _ Hok) as Hlv.
  inversion Hok as [? ? ? ? ? H1 H2 H3]; subst. rewrite get_eq in Hg.
  assert (G : forall subs w subs' w1 found, Forall (fun m => forall w m' w' p, tk_rm k = true -> world_wf w -> ok k T w m -> get k T m w = (m', w', p) ->
     world_le w w' /\ world_wf w' /\ ok k T w' m' /\ answers w' p (leaves T m) /\ leaves T m' = leaves T m) subs ->
     world_wf w -> Forall (ok k T w) subs -> gets k T subs w = (subs', w1, found) ->
     world_le w w1 /\ world_wf w1 /\ Forall (ok k T w1) subs' /\ Forall2 (found_ok w1) found (sub_leaves T subs) /\ map (leaves T) subs' = map (leaves T) subs).
  { clear - Hk. induction subs as [|s subs IHs]; intros w subs' w1 found HF Hw Ho Hg; cbn in Hg.
    - injection Hg as <- <- <-. split; [apply world_le_refl|]. split; [exact Hw|]. split; [constructor|]. split; [constructor|reflexivity].
    - destruct (get k T s w) as [[s' wa] r] eqn:E1. destruct (gets k T subs wa) as [[subs2 wb] rs] eqn:E2. injection Hg as <- <- <-.
      inversion HF as [|? ? F1 F2]; inversion Ho as [|? ? O1 O2]; subst.
      destruct (F1 w s' wa r Hk Hw O1 E1) as (A1 & A2 & A3 & A4 & A5).
      assert (O2' : Forall (ok k T wa) subs) by (eapply Forall_impl; [|exact O2]; intros; eapply ok_mono; eauto).
      destruct (IHs wa subs2 wb rs F2 A2 O2' E2) as (B1 & B2 & B3 & B4 & B5).
      split; [eapply world_le_trans; eauto|]. split; [exact B2|]. split; [constructor; auto; eapply ok_mono; eauto|].
      split; [|cbn; congruence].
      pose proof (ok_leaves k T wa s' A3) as Hls. rewrite A5 in Hls.
      unfold sub_leaves in *. cbn [map filter].
      destruct r as [c|].
      + destruct A4 as (N & A4). destruct (leaves T s) as [|x xs] eqn:El; [congruence|]. cbn [nonempty]. constructor; [|exact B4].
        eapply found_le; [exact B1|exact Hls|]. split; [discriminate|exact A4].
      + cbn in A4. rewrite A4. exact B4. }
  destruct (sfind T ifaces) as [own|] eqn:Eo.
  2:{ cbv iota beta zeta in Hg. destruct (gets k T subs w) as [[subs' w1] found] eqn:Eg. destruct (combine k T w1 combo num ([] ++ found)) as [[[combo' num'] w2] p0] eqn:Ec.
      injection Hg as <- <- <-. destruct (G _ _ _ _ _ IH Hw H2 Eg) as (A1 & A2 & A3 & A4 & A5).
      assert (Eol : own_leaves T ifaces = []) by (unfold own_leaves; rewrite Eo; reflexivity).
      assert (Hsl : sub_leaves T subs' = sub_leaves T subs) by (unfold sub_leaves; rewrite A5; reflexivity).
      rewrite leaves_eq in Hlv. rewrite Eol in *. cbn [app] in *.
      assert (Hlls : Forall (Forall (fun i => i < w_next w1)) (sub_leaves T subs)).
      { apply Forall_forall. intros l Hl. apply Forall_forall. intros i Hi. rewrite Forall_forall in Hlv. specialize (Hlv i). destruct A1 as [A1 _].
        enough (i < w_next w) by lia. apply Hlv. apply in_concat. eauto. }
      destruct (combine_ok k T w1 combo num found (sub_leaves T subs) combo' num' w2 p0 Hk A2 Hlls A4) as (B1 & B2 & B3 & B4); auto.
      { destruct (sfind T combo) as [c|], (sfind T num) as [n|]; auto. destruct H3 as (D1 & D2 & D3 & D4). destruct A1 as [A0 A1].
        repeat split; auto; [lia|]. intros E. rewrite (A1 c D2), (D4 E). symmetry. apply merged_le; auto. split; auto. }
      split; [eapply world_le_trans; eauto|]. split; [exact B2|]. rewrite !leaves_eq, Eol, Hsl. cbn [app].
      split; [|auto]. constructor.
      - rewrite Eo. discriminate.
      - eapply Forall_impl; [|exact A3]. intros; eapply ok_mono; eauto.
      - rewrite Eol, Hsl. cbn [app]. exact B4. }
  destruct (H1 _ eq_refl) as (j & -> & Hj). cbv iota beta zeta in Hg.
  destruct (gets k T subs w) as [[subs' w1] found] eqn:Eg. destruct (combine k T w1 combo num ([j] ++ found)) as [[[combo' num'] w2] p0] eqn:Ec.
  injection Hg as <- <- <-. destruct (G _ _ _ _ _ IH Hw H2 Eg) as (A1 & A2 & A3 & A4 & A5).
  assert (Eol : own_leaves T ifaces = [[j]]) by (unfold own_leaves; rewrite Eo; reflexivity).
  assert (Hsl : sub_leaves T subs' = sub_leaves T subs) by (unfold sub_leaves; rewrite A5; reflexivity).
  rewrite leaves_eq in Hlv. rewrite Eol in *. cbn [app] in *.
  assert (Hlls : Forall (Forall (fun i => i < w_next w1)) ([j] :: sub_leaves T subs)).
  { apply Forall_forall. intros l Hl. apply Forall_forall. intros i Hi. rewrite Forall_forall in Hlv. specialize (Hlv i). destruct A1 as [A1 _].
    enough (i < w_next w) by lia. apply Hlv. apply in_concat. eauto. }
  assert (A4' : Forall2 (found_ok w1) (j :: found) ([j] :: sub_leaves T subs)).
  { constructor; [|exact A4]. repeat split; [discriminate|destruct A1; lia| |intros q [= <-]; reflexivity].
    unfold merged. cbn [map]. rewrite concat_one; [reflexivity|apply A2]. }
  destruct (combine_ok k T w1 combo num (j :: found) ([j] :: sub_leaves T subs) combo' num' w2 p0 Hk A2 Hlls A4') as (B1 & B2 & B3 & B4); auto.
  { destruct (sfind T combo) as [c|], (sfind T num) as [n|]; auto. destruct H3 as (D1 & D2 & D3 & D4). destruct A1 as [A0 A1].
    repeat split; auto; [lia|]. intros E. rewrite (A1 c D2), (D4 E). symmetry. apply merged_le; auto. split; auto. }
  split; [eapply world_le_trans; eauto|]. split; [exact B2|]. rewrite !leaves_eq, Eol, Hsl. cbn [app].
  split; [|auto]. constructor.
  - rewrite Eo. intros q [= <-]. exists j. split; [reflexivity|]. destruct A1, B1; lia.
  - eapply Forall_impl; [|exact A3]. intros; eapply ok_mono; eauto.
  - rewrite Eol, Hsl. cbn [app]. exact B4.
Qed.

(** Interfaces that cannot be combined. *)
Lemma get_nonrm k T m : forall w, tk_rm k = false -> ok k T w m -> get k T m w = (m, w, sole T m).
Proof.
  induction m as [ifaces combo num res subs IH] using mgr_ind'. intros w Hk Hok. inversion Hok as [? ? ? ? ? H1 H2 H3]; subst.
  rewrite get_eq. cbn [sole].
  assert (G : gets k T subs w = (subs, w, flat_map (fun s => match sole T s with Some i => [i] | None => [] end) subs)).
  { clear - IH H2 Hk. induction H2 as [|s subs Hs Hsubs IHs]; [reflexivity|]. inversion IH as [|? ? I1 I2]; subst. cbn.
    rewrite (I1 w Hk Hs), (IHs I2). reflexivity. }
  rewrite G.
  assert (Hn : sfind T combo = None).
  { destruct (sfind T combo), (sfind T num); try contradiction; auto. destruct H3; congruence. }
  destruct (sfind T ifaces) as [[j|]|]; [|reflexivity|].
  - unfold combine. cbn [app]. destruct (flat_map _ subs) as [|a l]; [reflexivity|]. rewrite Hk, Hn. reflexivity.
  - unfold combine. cbn [app]. destruct (flat_map _ subs) as [|a [|b l]]; try reflexivity. rewrite Hk, Hn. reflexivity.
Qed.

(** What a lookup leaves unchanged. *)
Lemma combine_other k T T' w combo num l combo' num' w' p : combine k T w combo num l = (combo', num', w', p) -> T' <> T ->
  sfind T' combo' = sfind T' combo /\ sfind T' num' = sfind T' num.
Proof.
  unfold combine. intros H N.
  assert (F : forall (X : Type) (x : X) m, sfind T' (sset T x m) = sfind T' m).
  { intros X x m. rewrite sfind_sset. destruct (String.eqb_spec T' T); [congruence|reflexivity]. }
  destruct l as [|a [|b l]]; [injection H as <- <- <- <-; auto|injection H as <- <- <- <-; auto|].
  destruct (sfind T combo), (sfind T num), (tk_rm k); try destruct (Nat.eqb _ _); injection H as <- <- <- <-; rewrite ?F; auto.
Qed.
Lemma combine_le k T w combo num l combo' num' w' p : combine k T w combo num l = (combo', num', w', p) -> world_le w w'.
Proof.
  unfold combine. intros H. destruct l as [|a [|b l]]; [injection H as <- <- <- <-; apply world_le_refl|injection H as <- <- <- <-; apply world_le_refl|].
  destruct (sfind T combo), (sfind T num), (tk_rm k); try destruct (Nat.eqb _ _); injection H as <- <- <- <-; try apply world_le_refl; apply new_le.
Qed.
Lemma combine_wf k T w combo num l combo' num' w' p : combine k T w combo num l = (combo', num', w', p) -> world_wf w -> world_wf w'.
Proof.
  unfold combine. intros H Hw.
  assert (N : forall ms, world_wf (new_obj w (rm_concat ms []))).
  { intros ms j. cbn. destruct (Nat.eqb j (w_next w)); [|apply Hw]. cbn. apply wfm_concat, wfm_nil. }
  destruct l as [|a [|b l]]; [injection H as <- <- <- <-; auto|injection H as <- <- <- <-; auto|].
  destruct (sfind T combo), (sfind T num), (tk_rm k); try destruct (Nat.eqb _ _); injection H as <- <- <- <-; auto; apply (N (map (fun i => ho_map (w_obj w i)) (a :: b :: l))).
Qed.

Lemma get_frame k T m : forall w m' w' p, get k T m w = (m', w', p) ->
  world_le w w' /\ (world_wf w -> world_wf w') /\ same_regs m m' /\
  (forall k' T', T' <> T -> ok k' T' w m -> ok k' T' w' m').
Proof.
  induction m as [ifaces combo num res subs IH] using mgr_ind'. intros w m' w' p Hg. rewrite get_eq in Hg.
  assert (G : forall subs w subs' w1 found, Forall (fun m => forall w m' w' p, get k T m w = (m', w', p) ->
     world_le w w' /\ (world_wf w -> world_wf w') /\ same_regs m m' /\ (forall k' T', T' <> T -> ok k' T' w m -> ok k' T' w' m')) subs ->
     gets k T subs w = (subs', w1, found) ->
     world_le w w1 /\ (world_wf w -> world_wf w1) /\ Forall2 same_regs subs subs' /\ (forall k' T', T' <> T -> Forall (ok k' T' w) subs -> Forall (ok k' T' w1) subs')).
  { clear. induction subs as [|s subs IHs]; intros w subs' w1 found HF Hg; cbn in Hg.
    - injection Hg as <- <- <-. split; [apply world_le_refl|]. split; [auto|]. split; [constructor|auto].
    - destruct (get k T s w) as [[s' wa] r] eqn:E1. destruct (gets k T subs wa) as [[subs2 wb] rs] eqn:E2. injection Hg as <- <- <-.
      inversion HF as [|? ? F1 F2]; subst. destruct (F1 w s' wa r E1) as (A1 & A2 & A3 & A4). destruct (IHs wa subs2 wb rs F2 E2) as (B1 & B2 & B3 & B4).
      split; [eapply world_le_trans; eauto|]. split; [auto|]. split; [constructor; auto|].
      intros k' T' N Ho. inversion Ho as [|? ? O1 O2]; subst. constructor.
      + eapply ok_mono; eauto.
      + apply B4; auto. eapply Forall_impl; [|exact O2]. intros; eapply ok_mono; eauto. }
  assert (R : forall subs subs', Forall2 same_regs subs subs' ->
     (forall T, map (leaves T) subs' = map (leaves T) subs) /\ (forall T, flat_map (iface_resources T) subs' = flat_map (iface_resources T) subs) /\
     map im_names subs' = map im_names subs /\ (forall T, map (sole T) subs' = map (sole T) subs)).
  { clear. induction 1 as [|s s' subs subs' (H1 & H2 & H3 & H4 & _) Hs IH]; [auto|]. destruct IH as (I1 & I2 & I3 & I4).
    repeat split; intros; cbn; rewrite ?H1, ?H2, ?H3, ?H4, ?I1, ?I2, ?I3, ?I4; reflexivity. }
  assert (Fin : forall combo' num' subs', Forall2 same_regs subs subs' -> same_regs (Mgr ifaces combo num res subs) (Mgr ifaces combo' num' res subs')).
  { intros combo' num' subs' Hs. destruct (R _ _ Hs) as (R1 & R2 & R3 & R4). repeat split; intros; cbn [flat_get]; auto.
    - cbn [leaves]. rewrite !flat_map_concat_map, R1. reflexivity.
    - cbn [iface_resources]. rewrite R2. reflexivity.
    - cbn [im_names]. revert R3. generalize (skeys ifaces). clear. revert subs. induction subs' as [|s subs' IH]; intros [|s0 subs] l E; try discriminate; [reflexivity|].
      cbn in *. injection E as -> E. apply IH; exact E.
    - cbn [sole]. rewrite !flat_map_concat_map.
      assert (E : forall l l', map (sole T0) l' = map (sole T0) l -> map (fun s => match sole T0 s with Some i => [i] | None => [] end) l' = map (fun s => match sole T0 s with Some i => [i] | None => [] end) l).
      { clear. intros l l'; revert l. induction l' as [|s l' IH]; intros [|s0 l] E; try discriminate; [reflexivity|]. cbn in *. injection E as E0 E. rewrite E0, (IH _ E). reflexivity. }
      rewrite (E _ _ (R4 T0)). reflexivity. }
  assert (Hgen : forall mine, (let '(subs', w1, found) := gets k T subs w in let '(combo', num', w2, p) := combine k T w1 combo num (mine ++ found) in (Mgr ifaces combo' num' res subs', w2, p)) = (m', w', p) ->
     world_le w w' /\ (world_wf w -> world_wf w') /\ same_regs (Mgr ifaces combo num res subs) m' /\
     (forall k' T', T' <> T -> ok k' T' w (Mgr ifaces combo num res subs) -> ok k' T' w' m')).
  { intros mine H. destruct (gets k T subs w) as [[subs' w1] found] eqn:Eg. destruct (combine k T w1 combo num (mine ++ found)) as [[[combo' num'] w2] p0] eqn:Ec.
    injection H as <- <- <-. destruct (G _ _ _ _ _ IH Eg) as (A1 & A2 & A3 & A4).
    pose proof (combine_le _ _ _ _ _ _ _ _ _ _ Ec) as C1. pose proof (combine_wf _ _ _ _ _ _ _ _ _ _ Ec) as C2.
    split; [eapply world_le_trans; eauto|]. split; [auto|]. split; [apply Fin; exact A3|].
    intros k' T' N Ho. pose proof (ok_leaves k' T' w _ Ho) as Hlv. rewrite leaves_eq in Hlv. inversion Ho as [? ? ? ? ? H1 H2 H3]; subst.
    destruct (R _ _ A3) as (R1 & _). assert (Hsl : sub_leaves T' subs' = sub_leaves T' subs) by (unfold sub_leaves; rewrite R1; reflexivity).
    destruct (combine_other _ _ _ _ _ _ _ _ _ _ _ Ec N) as [-> ->] || (destruct (combine_other _ _ T' _ _ _ _ _ _ _ _ Ec N) as [E1 E2]).
    constructor.
    - intros q Hq. destruct (H1 q Hq) as (j & -> & Hj). exists j. split; [reflexivity|]. destruct A1, C1; lia.
    - eapply Forall_impl; [|apply (A4 k' T' N H2)]. intros; eapply ok_mono; eauto.
    - rewrite Hsl, E1, E2. assert (W : world_le w w2) by (eapply world_le_trans; eauto).
      destruct (sfind T' combo) as [c|], (sfind T' num) as [n|]; auto. destruct H3 as (D1 & D2 & D3 & D4).
      repeat split; auto; [destruct W; lia|]. intros E. rewrite (proj2 W c D2), (D4 E). symmetry. apply merged_le; auto. }
  destruct (sfind T ifaces) as [[j|]|].
  - exact (Hgen [j] Hg).
  - injection Hg as <- <- <-. split; [apply world_le_refl|]. split; [auto|]. split; [repeat split; auto|auto].
  - exact (Hgen [] Hg).
Qed.
