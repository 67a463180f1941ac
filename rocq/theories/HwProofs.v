(** Proofs about registries, interfaces, managers and initialisation. *)
From Verif Require Import HwTypes SMap SMapProofs HwModel HwSpec.
From Coq Require Import Sorted.

(** ** maps *)
Lemma smap_ext {A} (m1 m2 : smap A) : ssorted m1 -> ssorted m2 -> (forall k, sfind k m1 = sfind k m2) -> m1 = m2.
Proof.
  intros S1 S2 H.
  assert (K : skeys m1 = skeys m2).
  { apply sorted_ext; [exact S1|exact S2|]. intros x. rewrite <- !sfind_in_keys, H. reflexivity. }
  revert m2 S2 H K. unfold ssorted in *. induction m1 as [|[k v] m1 IH]; intros [|[k2 v2] m2] S2 H K; try discriminate; [reflexivity|].
  cbn in *. injection K as K0 K. subst k. pose proof (H k2) as H0. cbn in H0. rewrite String.eqb_refl in H0. injection H0 as ->. f_equal.
  inversion S1 as [|? ? S1' F1]; inversion S2 as [|? ? S2' F2]; subst.
  apply IH; auto. intros q. specialize (H q). cbn in H. destruct (String.eqb_spec q k2) as [Eq|Eq]; [|exact H]; rewrite Eq.
  assert (N : forall m : smap A, Forall (slt k2) (map fst m) -> sfind k2 m = None).
  { intros m F. apply sfind_none. intros Hi. rewrite Forall_forall in F. apply F in Hi. exact (slt_irrefl _ Hi). }
  rewrite (N m1), (N m2); auto.
Qed.

Definition keyed (m : rmap) : Prop := forall n h, sfind n m = Some h -> h_name h = n.
Definition wfm (m : rmap) : Prop := ssorted m /\ keyed m.

Lemma wfm_nil : wfm [].
Proof. split; [constructor|]. intros n h; discriminate. Qed.
Lemma wfm_register m h : wfm m -> wfm (rm_register m h).
Proof.
  intros [S K]. split; [apply sset_sorted; exact S|]. intros n h' H. unfold rm_register in H. rewrite sfind_sset in H.
  destruct (String.eqb_spec n (h_name h)) as [->|]; [congruence|]. apply K; exact H.
Qed.
Lemma wfm_fold hs : forall m, wfm m -> wfm (fold_left rm_register hs m).
Proof. induction hs as [|h hs IH]; intros m H; simpl; auto. apply IH, wfm_register, H. Qed.
Lemma wfm_registry hs : wfm (registry hs).
Proof. apply wfm_fold, wfm_nil. Qed.

Lemma first_app {A B} (f : A -> option B) a b : first_some f (a ++ b) = match first_some f a with Some x => Some x | None => first_some f b end.
Proof. induction a as [|x a IH]; simpl; [reflexivity|]. destruct (f x); auto. Qed.

Lemma find_app {A} (f : A -> bool) a b : find f (a ++ b) = match find f a with Some x => Some x | None => find f b end.
Proof. induction a as [|x a IH]; simpl; [reflexivity|]. destruct (f x); auto. Qed.

Lemma registry_from hs : forall m n, sfind n (fold_left rm_register hs m) = match registered_last hs n with Some h => Some h | None => sfind n m end.
Proof.
  unfold registered_last. induction hs as [|h hs IH]; intros m n; simpl; [reflexivity|].
  rewrite IH, find_app. cbn. unfold rm_register. rewrite sfind_sset, (String.eqb_sym n). destruct (find _ (rev hs)); [reflexivity|]. destruct (String.eqb (h_name h) n); reflexivity.
Qed.
Lemma registry_get hs n : rm_get (registry hs) n = registered_last hs n.
Proof. unfold rm_get, registry. rewrite registry_from. destruct (registered_last hs n); reflexivity. Qed.

Lemma registered_last_iff hs n : registered_last hs n <> None <-> exists h, In h hs /\ h_name h = n.
Proof.
  unfold registered_last. split.
  - intros H. destruct (find _ (rev hs)) as [h|] eqn:E; [|congruence]. apply find_some in E as [E1 E2]. apply String.eqb_eq in E2.
    exists h. split; [apply in_rev; exact E1|exact E2].
  - intros (h & Hi & Hn) E. apply in_rev in Hi. apply (find_none _ _ E) in Hi. rewrite Hn, String.eqb_refl in Hi. discriminate.
Qed.

Lemma registry_names hs n : In n (rm_names (registry hs)) <-> exists h, In h hs /\ h_name h = n.
Proof. unfold rm_names. rewrite <- sfind_in_keys. fold (rm_get (registry hs) n). rewrite registry_get. apply registered_last_iff. Qed.

Lemma sorted_increasing l : StronglySorted slt l -> increasing l.
Proof.
  induction 1 as [|a l Hl IH Ha]; intros i j x y Hij Hi Hj; [destruct i; discriminate|].
  destruct j as [|j]; [lia|]. destruct i as [|i]; cbn in *.
  - injection Hi as <-. rewrite Forall_forall in Ha. apply Ha. eapply nth_error_In; eauto.
  - eapply (IH i j); eauto; lia.
Qed.
Lemma registry_increasing hs : increasing (rm_names (registry hs)).
Proof. apply sorted_increasing. apply (wfm_registry hs). Qed.

(** ** combination *)
Lemma add_all_from m names : forall r, keyed m -> forall n,
  sfind n (fold_left (fun r n => match rm_get m n with Some h => rm_register r h | None => r end) names r) =
  if existsb (String.eqb n) names then match sfind n m with Some h => Some h | None => sfind n r end else sfind n r.
Proof.
  intros r K. revert r. induction names as [|a names IH]; intros r n; simpl; [reflexivity|]. rewrite IH.
  unfold rm_get. destruct (sfind a m) as [h|] eqn:E.
  - unfold rm_register. rewrite sfind_sset. rewrite (K _ _ E). destruct (String.eqb_spec n a) as [->|]; simpl; [|reflexivity].
    rewrite E. destruct (existsb _ names); reflexivity.
  - destruct (String.eqb_spec n a) as [->|]; simpl; [|reflexivity]. rewrite E. destruct (existsb _ names); reflexivity.
Qed.
Lemma add_all_find r m n : keyed m -> sfind n (rm_add_all r m) = match sfind n m with Some h => Some h | None => sfind n r end.
Proof.
  intros K. unfold rm_add_all. rewrite (add_all_from m (rm_names m) r K n). destruct (existsb (String.eqb n) (rm_names m)) eqn:E; [reflexivity|].
  assert (sfind n m = None) as ->; [|reflexivity]. apply sfind_none. intros H.
  assert (existsb (String.eqb n) (rm_names m) = true); [|congruence]. apply existsb_exists. exists n. split; [exact H|apply String.eqb_refl].
Qed.
Lemma wfm_add_all r m : wfm r -> wfm (rm_add_all r m).
Proof.
  unfold rm_add_all. generalize (rm_names m). intros l. revert r. induction l as [|a l IH]; intros r H; simpl; auto. apply IH.
  destruct (rm_get m a); [apply wfm_register|]; exact H.
Qed.
Lemma wfm_concat ms : forall r, wfm r -> wfm (rm_concat ms r).
Proof. induction ms as [|m ms IH]; intros r H; simpl; auto. apply IH, wfm_add_all, H. Qed.
Lemma concat_find ms : forall r n, Forall keyed ms ->
  sfind n (rm_concat ms r) = match first_some (sfind n) (rev ms) with Some h => Some h | None => sfind n r end.
Proof.
  induction ms as [|m ms IH]; intros r n H; [reflexivity|]. inversion H as [|? ? Hm Hms]; subst. cbn [rm_concat fold_left rev].
  fold (rm_concat ms (rm_add_all r m)). rewrite (IH _ _ Hms), first_app, (add_all_find _ _ _ Hm). cbn.
  destruct (first_some (sfind n) (rev ms)); [reflexivity|]. destruct (sfind n m); reflexivity.
Qed.
Lemma concat_one m : wfm m -> rm_concat [m] [] = m.
Proof.
  intros [S K]. apply smap_ext; [apply wfm_concat, wfm_nil|exact S|]. intros n. rewrite concat_find by (repeat constructor; exact K).
  cbn. destruct (sfind n m); reflexivity.
Qed.
Lemma first_map {A B C} (g : A -> B) (f : B -> option C) l : first_some f (map g l) = first_some (fun x => f (g x)) l.
Proof. induction l as [|a l IH]; simpl; [reflexivity|]. destruct (f (g a)); auto. Qed.
Lemma concat_flat lls : Forall (Forall keyed) lls ->
  rm_concat (map (fun l => rm_concat l []) lls) [] = rm_concat (concat lls) [].
Proof.
  intros H. apply smap_ext; [apply wfm_concat, wfm_nil|apply wfm_concat, wfm_nil|]. intros n.
  rewrite !concat_find.
  - rewrite <- map_rev, first_map.
    assert (E : first_some (fun x => sfind n (rm_concat x [])) (rev lls) = first_some (sfind n) (rev (concat lls))).
    { clear -H. induction H as [|l lls Hl Hls IH]; [reflexivity|]. cbn [concat rev]. rewrite rev_app_distr, !first_app, IH. clear IH.
      destruct (first_some (sfind n) (rev (concat lls))); [reflexivity|]. cbn. rewrite concat_find by exact Hl. destruct (first_some (sfind n) (rev l)); reflexivity. }
    rewrite E. reflexivity.
  - clear -H. induction H; cbn; [constructor|]. apply Forall_app; auto.
  - clear -H. induction H as [|l lls Hl Hls IH]; cbn; constructor; auto. apply wfm_concat, wfm_nil.
Qed.

(** ** claims *)
Lemma iface_map c ops : ho_map (iface_run c ops) = registry (handles_of ops).
Proof.
  unfold iface_run, registry, handles_of. 
  assert (H : forall ops o, ho_map (fold_left (fun o x => fst (iface_step c o x)) ops o) = fold_left rm_register (flat_map (fun x => match x with IReg h => [h] | _ => [] end) ops) (ho_map o)).
  { clear. induction ops as [|x ops IH]; intros o; [reflexivity|]. cbn [fold_left flat_map]. rewrite IH, fold_left_app. f_equal. destruct x; cbn; auto.
    unfold hw_get_handle. destruct (rm_get (ho_map o) n); [destruct c|]; reflexivity. }
  apply H.
Qed.
Lemma iface_run_snoc c ops x : iface_run c (ops ++ [x]) = fst (iface_step c (iface_run c ops) x).
Proof. unfold iface_run. rewrite fold_left_app. reflexivity. Qed.
Lemma handles_in ops h : In h (handles_of ops) <-> In (IReg h) ops.
Proof.
  unfold handles_of. rewrite in_flat_map. split.
  - intros (x & Hx & Hi). destruct x; try contradiction. destruct Hi as [->|[]]. exact Hx.
  - intros H. exists (IReg h). split; [exact H|left; reflexivity].
Qed.

Lemma obtained_snoc ops x n : obtained (ops ++ [x]) n <->
  (x <> IClear /\ obtained ops n) \/ (x = IGet n /\ exists h, In (IReg h) ops /\ h_name h = n).
Proof.
  split.
  - intros (pre & post & E & Hc & Hh). destruct post as [|y post _] using rev_ind.
    + apply app_inj_tail in E as [-> ->]. right. auto.
    + assert (E' : ops ++ [x] = (pre ++ IGet n :: post) ++ [y]) by (rewrite E, <- app_assoc; reflexivity).
      apply app_inj_tail in E' as [-> ->]. left. split; [intros ->; apply Hc, in_app_iff; right; left; reflexivity|].
      exists pre, post. split; [reflexivity|]. split; [|exact Hh]. intros H; apply Hc, in_app_iff; left; exact H.
  - intros [[Hx (pre & post & -> & Hc & Hh)]|[-> Hh]].
    + exists pre, (post ++ [x]). split; [rewrite <- app_assoc; reflexivity|]. split; [|exact Hh].
      intros H. apply in_app_iff in H as [H|[H|[]]]; [auto|congruence].
    + exists ops, []. auto.
Qed.

Lemma claims_iff c ops n : In n (ho_claims (iface_run c ops)) <-> c = true /\ obtained ops n.
Proof.
  induction ops as [|x ops IH] using rev_ind.
  - cbn. split; [contradiction|]. intros (_ & pre & post & E & _). destruct pre; discriminate.
  - rewrite iface_run_snoc, obtained_snoc. destruct x as [h|k|]; cbn [iface_step fst].
    + cbn. rewrite IH. split; [intros [-> H]; split; [reflexivity|left; split; [discriminate|exact H]]|].
      intros [-> [[_ H]|[H _]]]; [auto|discriminate].
    + unfold hw_get_handle. rewrite iface_map, registry_get.
      assert (Q := registered_last_iff (handles_of ops) k).
      destruct (registered_last (handles_of ops) k) as [h|] eqn:E.
      * destruct c; cbn.
        -- rewrite set_insert_in, IH. split.
           ++ intros [->|[_ H]]; split; auto; [|left; split; [discriminate|exact H]].
              right. split; [reflexivity|]. destruct (proj1 Q) as (h' & Hh & Hn); [discriminate|]. exists h'. rewrite <- handles_in. auto.
           ++ intros [_ [[_ H]|[H _]]]; [auto|]. injection H as ->. auto.
        -- rewrite IH. split; intros [? _]; discriminate.
      * cbn. rewrite IH. split; [intros [-> H]; split; auto; left; split; [discriminate|exact H]|].
        intros [-> [[_ H]|[H (h & Hi & Hn)]]]; [auto|]. injection H as ->. exfalso. apply Q; [|reflexivity].
        exists h. rewrite handles_in. auto.
    + cbn. split; [contradiction|]. intros [_ [[H _]|[H _]]]; [congruence|discriminate].
Qed.
Lemma get_answer c ops n : snd (iface_step c (iface_run c ops) (IGet n)) = Some (registered_last (handles_of ops) n).
Proof. cbn. unfold hw_get_handle. rewrite iface_map, registry_get. destruct (registered_last _ _); reflexivity. Qed.
