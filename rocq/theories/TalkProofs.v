(** Proofs about what the scripts say to the manager. *)
From Coq Require Import Permutation Lia.
From Verif Require Import HwTypes Lifecycle CMModel CMSpec ScriptModel ScriptSpec ScriptProofs ScriptMain TalkSpec.
Local Open Scope list_scope.

Lemma sublist_skip {A} (a l m : list A) : sublist l m -> sublist l (a ++ m).
Proof. intros H. induction a as [|x a IH]; [exact H | now apply sub_skip]. Qed.
Lemma sublist_nil_any {A} (m : list A) : sublist [] m.
Proof. induction m; constructor; assumption. Qed.
Lemma sublist_app_keep {A} (a l m : list A) : sublist l m -> sublist (a ++ l) (a ++ m).
Proof. intros H. induction a as [|x a IH]; [exact H | now apply sub_keep]. Qed.

(** Every execution is a conversation, in any environment. *)
Lemma executes_talks W ls {R} h (p : script R) h' r : executes W ls h p h' r ->
  exists l t, talks p l r /\ h' = h ++ t /\ sublist (map fst l) (flat_map request_in t) /\
    forall e, In (RList, AList e) l -> exists t1 t2, t = t1 ++ ListControllers :: t2 /\ reply ls (h ++ t1) ListControllers = AList e.
Proof.
  induction 1 as [h o q h' ro HW E IH | h y | h q | h n env k b h' ro Hi Hr E IH | h n k b h' ro Hi Hr E IH | h k e h' ro Hi Hr E IH
      | h a b z now ck pr k h' ro Hi Hr E IH | h a b z now ck pr mid w ok1 ok2 y k h' ro Hi Hr HW HP Hs Hr2 E IH | h a b z now ck pr mid k Hi Hr HW
      | h fo now ck pr b k h' ro Hi Hr E IH | h fo now ck pr mid w ok1 ok2 y k h' ro Hi Hr HW HP Hs Hr2 E IH | h fo now ck pr mid k Hi Hr HW].
  all: try (destruct IH as (l & t & T & -> & S & X)).
  - exists l, (o :: t). split; [exact T|]. split; [now rewrite <- app_assoc|]. split; [cbn; now apply sublist_skip|].
    intros e He. destruct (X e He) as (t1 & t2 & -> & Q). exists (o :: t1), t2. split; [reflexivity|]. rewrite <- app_assoc in Q. exact Q.
  - exists [], []. split; [constructor|]. split; [now rewrite app_nil_r|]. split; [constructor | intros e []].
  - exists [], []. split; [constructor|]. split; [now rewrite app_nil_r|]. split; [constructor | intros e []].
  - exists ((RLoad n, ABool b) :: l), (Load n env :: t). split; [now constructor|]. split; [now rewrite <- app_assoc|]. split; [cbn; now apply sub_keep|].
    intros e [He|He]; [discriminate He|]. destruct (X e He) as (t1 & t2 & -> & Q). exists (Load n env :: t1), t2. split; [reflexivity|]. rewrite <- app_assoc in Q. exact Q.
  - exists ((RUnload n, ABool b) :: l), (Unload n :: t). split; [now constructor|]. split; [now rewrite <- app_assoc|]. split; [cbn; now apply sub_keep|].
    intros e [He|He]; [discriminate He|]. destruct (X e He) as (t1 & t2 & -> & Q). exists (Unload n :: t1), t2. split; [reflexivity|]. rewrite <- app_assoc in Q. exact Q.
  - exists ((RList, AList e) :: l), (ListControllers :: t). split; [now constructor|]. split; [now rewrite <- app_assoc|]. split; [cbn; now apply sub_keep|].
    intros e' [He|He]; [injection He as <-; exists [], t; split; [reflexivity | now rewrite app_nil_r]|].
    destruct (X e' He) as (t1 & t2 & -> & Q). exists (ListControllers :: t1), t2. split; [reflexivity|]. rewrite <- app_assoc in Q. exact Q.
  - exists ((RSwitch a b z, ABool false) :: l), (Switch a b z false 0 now ck pr :: t). split; [now constructor|]. split; [now rewrite <- app_assoc|]. split; [cbn; now apply sub_keep|].
    intros e [He|He]; [discriminate He|]. destruct (X e He) as (t1 & t2 & -> & Q). eexists (_ :: t1), t2. split; [reflexivity|]. rewrite <- app_assoc in Q. exact Q.
  - exists ((RSwitch a b z, ABool y) :: l), (Switch a b z false 0 now ck pr :: mid ++ Poll w ok1 ok2 :: t). split; [now constructor|].
    split; [now rewrite <- !app_assoc|]. split.
    { cbn. apply sub_keep. rewrite flat_map_app. now apply sublist_skip. }
    intros e [He|He]; [discriminate He|]. destruct (X e He) as (t1 & t2 & -> & Q). exists (Switch a b z false 0 now ck pr :: mid ++ Poll w ok1 ok2 :: t1), t2.
    split; [cbn; now rewrite <- app_assoc|]. rewrite <- !app_assoc in Q. exact Q.
  - exists [(RSwitch a b z, ANone)], (Switch a b z false 0 now ck pr :: mid). split; [constructor|]. split; [now rewrite <- app_assoc|].
    split; [cbn; apply sub_keep, sublist_nil_any|]. intros e [He|[]]. discriminate He.
  - exists ((RReload fo, ABool b) :: l), (Reload fo now ck pr :: t). split; [now constructor|]. split; [now rewrite <- app_assoc|]. split; [cbn; now apply sub_keep|].
    intros e [He|He]; [discriminate He|]. destruct (X e He) as (t1 & t2 & -> & Q). eexists (_ :: t1), t2. split; [reflexivity|]. rewrite <- app_assoc in Q. exact Q.
  - exists ((RReload fo, ABool y) :: l), (Reload fo now ck pr :: mid ++ Poll w ok1 ok2 :: t). split; [now constructor|].
    split; [now rewrite <- !app_assoc|]. split.
    { cbn. apply sub_keep. rewrite flat_map_app. now apply sublist_skip. }
    intros e [He|He]; [discriminate He|]. destruct (X e He) as (t1 & t2 & -> & Q). exists (Reload fo now ck pr :: mid ++ Poll w ok1 ok2 :: t1), t2.
    split; [cbn; now rewrite <- app_assoc|]. rewrite <- !app_assoc in Q. exact Q.
  - exists [(RReload fo, ANone)], (Reload fo now ck pr :: mid). split; [constructor|]. split; [now rewrite <- app_assoc|].
    split; [cbn; apply sub_keep, sublist_nil_any|]. intros e [He|[]]. discriminate He.
Qed.

(** ** Inversions *)
Lemma talk_ret {R} (x : R) l r : talks (Ret x) l r -> l = [] /\ (r = Some x \/ r = None).
Proof. inversion 1; subst; auto. Qed.
Lemma talk_load {R} n (k : bool -> script R) l r : talks (CLoad n k) l r ->
  l = [] /\ r = None \/ exists b l', l = (RLoad n, ABool b) :: l' /\ talks (k b) l' r.
Proof. inversion 1; subst; eauto. Qed.
Lemma talk_unload {R} n (k : bool -> script R) l r : talks (CUnload n k) l r ->
  l = [] /\ r = None \/ exists b l', l = (RUnload n, ABool b) :: l' /\ talks (k b) l' r.
Proof. inversion 1; subst; eauto. Qed.
Lemma talk_list {R} (k : list lc_entry -> script R) l r : talks (CList k) l r ->
  l = [] /\ r = None \/ exists e l', l = (RList, AList e) :: l' /\ talks (k e) l' r.
Proof. inversion 1; subst; eauto. Qed.
Lemma talk_switch {R} a b z (k : bool -> script R) l r : talks (CSwitch a b z k) l r ->
  l = [] /\ r = None \/ l = [(RSwitch a b z, ANone)] /\ r = None \/ exists x l', l = (RSwitch a b z, ABool x) :: l' /\ talks (k x) l' r.
Proof. inversion 1; subst; eauto 6. Qed.

Lemma talk_bind {R S} (p : script R) (f : R -> script S) : forall l r, talks (bind p f) l r ->
  r = None /\ talks p l None \/ exists l1 l2 x, l = l1 ++ l2 /\ talks p l1 (Some x) /\ talks (f x) l2 r.
Proof.
  induction p as [x|n k IH|n k IH|a b z k IH|k IH|fo k IH]; intros l r T; cbn [bind] in T.
  1:{ right. exists [], l, x. split; [reflexivity|]. split; [constructor | exact T]. }
  all: inversion T; subst; clear T; try (left; split; [reflexivity | now constructor]; fail);
    match goal with K : talks (bind _ _) _ _ |- _ =>
      apply IH in K as [[-> K]|(l1 & l2 & y & -> & K1 & K2)];
      [left; split; [reflexivity | now constructor] | right; eexists (_ :: l1), l2, y; split; [reflexivity|]; split; [now constructor | exact K2]] end.
Qed.

(** A loop over names with one request each. *)
Lemma talk_each {R} (f : string -> script R) (q : string -> req) :
  (forall n l r, talks (f n) l r -> l = [] /\ r = None \/ map fst l = [q n]) ->
  forall ns l r, talks (each f ns) l r -> exists a, begins a ns /\ map fst l = map q a /\ (r <> None -> a = ns).
Proof.
  intros F. induction ns as [|n ns IH]; intros l r T; cbn [each] in T.
  - apply talk_ret in T as [-> _]. exists []. split; [now exists []|]. split; reflexivity.
  - assert (FS : forall l x, talks (f n) l (Some x) -> map fst l = [q n]) by (intros l0 x H; destruct (F _ _ _ H) as [[_ H0]|H0]; [discriminate H0 | exact H0]).
    apply talk_bind in T as [[-> T]|(l1 & l2 & x & -> & T1 & T2)].
    + destruct (F _ _ _ T) as [[-> _]|E].
      * exists []. split; [now exists (n :: ns)|]. split; [reflexivity | congruence].
      * exists [n]. split; [now exists ns|]. split; [exact E | congruence].
    + apply FS in T1. apply talk_bind in T2 as [[-> T2]|(l3 & l4 & xs & -> & T2 & T3)].
      * destruct (IH _ _ T2) as (a & [c ->] & E & _). exists (n :: a). split; [now exists c|]. split; [rewrite map_app, T1, E; reflexivity | congruence].
      * apply talk_ret in T3 as [-> _]. rewrite app_nil_r. destruct (IH _ _ T2) as (a & _ & E & A). assert (a = ns) by (apply A; discriminate). subst a.
        exists (n :: ns). split; [exists []; now rewrite app_nil_r|]. split; [rewrite map_app, T1, E; reflexivity | reflexivity].
Qed.
Lemma talk_load1 n l r : talks (load_controller n) l r -> l = [] /\ r = None \/ map fst l = [RLoad n].
Proof. intros T. apply talk_load in T as [T|(b & l' & -> & T)]; [now left|]. apply talk_ret in T as [-> _]. now right. Qed.
Lemma talk_unload1 n l r : talks (unload_controller n) l r -> l = [] /\ r = None \/ map fst l = [RUnload n].
Proof. intros T. apply talk_unload in T as [T|(b & l' & -> & T)]; [now left|]. apply talk_ret in T as [-> _]. now right. Qed.
Lemma talk_switch1 a s l r : talks (start_stop_controllers a s) l r -> l = [] /\ r = None \/ map fst l = [RSwitch a s STRICT].
Proof. intros T. apply talk_switch in T as [T|[[-> _]|(b & l' & -> & T)]]; [now left | now right|]. apply talk_ret in T as [-> _]. now right. Qed.

(** Two loops one after the other. *)
Lemma talk_two {R S X} (f : string -> script R) (g : string -> script S) q q' (k : list R -> list S -> X) ns ms l r :
  (forall n l r, talks (f n) l r -> l = [] /\ r = None \/ map fst l = [q n]) ->
  (forall n l r, talks (g n) l r -> l = [] /\ r = None \/ map fst l = [q' n]) ->
  talks (bind (each f ns) (fun x => bind (each g ms) (fun y => Ret (k x y)))) l r ->
  exists a b, begins a ns /\ begins b ms /\ map fst l = map q a ++ map q' b /\ (b <> [] -> a = ns) /\ (r <> None -> a = ns /\ b = ms).
Proof.
  intros F G T. apply talk_bind in T as [[-> T]|(l1 & l2 & x & -> & T1 & T2)].
  - destruct (talk_each f q F _ _ _ T) as (a & B & E & _). exists a, []. split; [exact B|]. split; [now exists ms|]. split; [now rewrite app_nil_r|]. split; congruence.
  - destruct (talk_each f q F _ _ _ T1) as (a & B & E & A). assert (a = ns) by (apply A; discriminate). subst a.
    apply talk_bind in T2 as [[-> T2]|(l3 & l4 & y & -> & T2 & T3)].
    + destruct (talk_each g q' G _ _ _ T2) as (b & B' & E' & _). exists ns, b. rewrite map_app, E, E'. repeat (split; [solve [auto | congruence]|]). congruence.
    + apply talk_ret in T3 as [-> _]. rewrite app_nil_r. destruct (talk_each g q' G _ _ _ T2) as (b & B' & E' & A'). exists ns, b. rewrite map_app, E, E'.
      assert (b = ms) by (apply A'; discriminate). repeat (split; [solve [auto | congruence]|]). auto.
Qed.

(** ** spawner *)
Lemma accepted_app l l' : accepted (l ++ l') = accepted l ++ accepted l'.
Proof. apply flat_map_app. Qed.
Lemma talk_spawner_load ns : forall ld l r, talks (spawner_load ns ld) l r ->
  exists a, begins a ns /\ map fst l = map RLoad a /\ (forall x, r = Some x -> a = ns /\ x = ld ++ accepted l).
Proof.
  induction ns as [|n ns IH]; intros ld l r T; cbn [spawner_load] in T.
  - apply talk_ret in T as [-> T]. exists []. split; [now exists []|]. split; [reflexivity|]. intros x ->. destruct T as [T|T]; [injection T as ->; now rewrite app_nil_r | discriminate T].
  - apply talk_load in T as [[-> ->]|(b & l' & -> & T)].
    + exists []. split; [now exists (n :: ns)|]. split; [reflexivity | discriminate].
    + destruct (IH _ _ _ T) as (a & [c ->] & E & X). exists (n :: a). split; [now exists c|]. split; [cbn; now rewrite E|].
      intros x Hx. destruct (X x Hx) as [Ea ->]. rewrite <- Ea. split; [reflexivity|]. destruct b; cbn; [now rewrite <- app_assoc | reflexivity].
Qed.

(** ** unspawner *)
Lemma running_names e m : isin m (map en_name (filter (fun c => String.eqb (en_state c) "running") e)) = true <-> shows_running e m.
Proof.
  rewrite isin_spec, in_map_iff. unfold shows_running. split.
  - intros (x & E & H). apply filter_In in H as [H1 H2]. apply String.eqb_eq in H2. eauto.
  - intros (x & H1 & H2 & H3). exists x. split; [exact H2|]. apply filter_In. split; [exact H1 | now apply String.eqb_eq].
Qed.

Lemma talk_stop order ti inh l r : enumerates order -> talks (unspawner_stop order ti inh) l r ->
  rounds ti l /\ forall inh' ok, r = Some (inh', ok) -> (forall m, In m inh' <-> In m inh \/ In m (stops_of l)) /\ (NoDup inh -> NoDup inh') /\
    forall l', rounds ti l' -> rounds ti (l ++ l').
Proof.
  intros HO T. unfold unspawner_stop in T. apply talk_list in T as [[-> ->]|(e & l' & -> & T)]; [split; [constructor | discriminate]|].
  cbv zeta in T. set (s0 := filter _ _) in T.
  assert (S0 : forall m, In m (order s0) <-> In m ti /\ shows_running e m).
  { intros m. transitivity (In m s0); [split; apply Permutation_in; [symmetry|]; apply HO|]. unfold s0. rewrite filter_In, nodup_In, running_names. reflexivity. }
  assert (N0 : NoDup (order s0)) by (eapply Permutation_NoDup; [apply HO|]; apply NoDup_filter, NoDup_nodup).
  destruct (order s0) as [|n0 s1] eqn:Es.
  - apply talk_ret in T as [-> T]. split; [apply rd_quiet; constructor|]. intros inh' ok ->. destruct T as [T|T]; [injection T as -> ->|discriminate T].
    split; [intros m; cbn; tauto|]. split; [auto|]. intros l' L. cbn. now apply rd_quiet.
  - apply talk_switch in T as [[-> ->]|[[-> ->]|(x & l2 & -> & T)]].
    + split; [apply rd_quiet; constructor | discriminate].
    + split; [apply rd_lost; auto; discriminate | discriminate].
    + apply talk_ret in T as [-> T]. split; [apply rd_stop; auto; [discriminate | constructor]|]. intros inh' ok ->. destruct T as [T|T]; [|discriminate T]. injection T as -> ->.
      split; [|split; [intros _; apply NoDup_nodup | intros l' L; cbn; apply rd_stop; auto; discriminate]].
      intros m. rewrite nodup_In, in_app_iff. cbn [stops_of flat_map]. rewrite app_nil_r. reflexivity.
Qed.

Lemma stops_app l l' : stops_of (l ++ l') = stops_of l ++ stops_of l'.
Proof. apply flat_map_app. Qed.
Lemma talk_timer order ti : enumerates order -> forall n inh l r, talks (unspawner_timer order n ti inh) l r ->
  rounds ti l /\ forall inh' oks, r = Some (inh', oks) -> (forall m, In m inh' <-> In m inh \/ In m (stops_of l)) /\ (NoDup inh -> NoDup inh') /\
    forall l', rounds ti l' -> rounds ti (l ++ l').
Proof.
  intros HO. induction n as [|n IH]; intros inh l r T; cbn [unspawner_timer] in T.
  - apply talk_ret in T as [-> T]. split; [constructor|]. intros inh' oks ->. destruct T as [T|T]; [injection T as -> ->|discriminate T]. split; [intros m; cbn; tauto|]. auto.
  - apply talk_bind in T as [[-> T]|(l1 & l2 & [i1 o1] & -> & T1 & T2)]; [destruct (talk_stop _ _ _ _ _ HO T) as [X _]; split; [exact X | discriminate]|].
    destruct (talk_stop _ _ _ _ _ HO T1) as [_ X1]. destruct (X1 _ _ eq_refl) as (I1 & N1 & A1). cbn [fst snd] in T2.
    apply talk_bind in T2 as [[-> T2]|(l3 & l4 & [i2 o2] & -> & T2 & T3)]; [destruct (IH _ _ _ T2) as [X _]; split; [now apply A1 | discriminate]|].
    destruct (IH _ _ _ T2) as [R2 X2]. destruct (X2 _ _ eq_refl) as (I2 & N2 & A2). apply talk_ret in T3 as [-> T3]. rewrite app_nil_r.
    split; [now apply A1|]. intros inh' oks ->. destruct T3 as [T3|T3]; [|discriminate T3]. cbn [fst snd] in T3. injection T3 as -> _.
    split; [|split; [auto | intros l' L; rewrite <- app_assoc; auto]]. intros m. rewrite I2, I1, stops_app, in_app_iff. tauto.
Qed.

(** ** controller_group *)
Lemma dict_shows e n : dict_in n (loaded_dict e) = true <-> shows e n.
Proof. unfold dict_in, loaded_dict, shows. rewrite isin_spec, map_map. reflexivity. Qed.
Lemma dict_shows_running e n : NoDup (map en_name e) -> (dict_get n (loaded_dict e) = true <-> shows_running e n).
Proof.
  unfold dict_get, loaded_dict, shows_running. induction e as [|c e IH]; intros N; cbn [map find fst snd].
  - split; [discriminate | intros (x & [] & _)].
  - inversion N as [|? ? N1 N2]; subst. destruct (String.eqb_spec (en_name c) n) as [E|E]; cbn [snd].
    + rewrite String.eqb_eq. split; [intros H; exists c; split; [now left | auto]|]. intros (x & [<-|H] & Hx & Hr); [exact Hr|].
      exfalso. apply N1. rewrite E, <- Hx. now apply in_map.
    + rewrite (IH N2). split; intros (x & H & Hx); [exists x; split; [now right | exact Hx]|]. destruct H as [<-|H]; [tauto | eauto].
Qed.

Lemma talk_group_load d desired : forall ts tst l r, talks (group_load d desired ts tst) l r ->
  exists a, begins a (filter (fun n => negb (dict_in n d)) desired) /\
    (map fst l = map RLoad a \/ a = filter (fun n => negb (dict_in n d)) desired /\ accepted l = a /\
       map fst l = map RLoad a ++ [RSwitch (ts ++ filter (fun n => negb (dict_get n d)) desired) tst STRICT]).
Proof.
  induction desired as [|n desired IH]; intros ts tst l r T; cbn [group_load] in T.
  - exists []. split; [now exists []|]. cbn [filter]. rewrite app_nil_r.
    apply talk_switch in T as [[-> _]|[[-> _]|(x & l' & -> & T)]]; [now left | now right|]. apply talk_ret in T as [-> _]. now right.
  - assert (EA : (if dict_get n d then ts else ts ++ [n]) ++ filter (fun m => negb (dict_get m d)) desired = ts ++ filter (fun m => negb (dict_get m d)) (n :: desired)).
    { cbn [filter]. destruct (dict_get n d); cbn [negb]; [reflexivity|]. now rewrite <- app_assoc. }
    assert (EF : filter (fun m => negb (dict_in m d)) (n :: desired) = if dict_in n d then filter (fun m => negb (dict_in m d)) desired else n :: filter (fun m => negb (dict_in m d)) desired).
    { cbn [filter]. destruct (dict_in n d); reflexivity. }
    rewrite EF, <- EA. destruct (dict_in n d) eqn:Dn; [exact (IH _ _ _ _ T)|].
    apply talk_load in T as [[-> _]|(b & l' & -> & T)]; [exists []; split; [eexists; reflexivity | now left]|]. destruct b.
    + destruct (IH _ _ _ _ T) as (a & [c Ec] & X). exists (n :: a). split; [exists c; cbn; now rewrite Ec|].
      destruct X as [X|(X1 & X2 & X3)]; [left; cbn; now rewrite X|]. right. split; [cbn; now rewrite X1|]. split; [change (n :: accepted l' = n :: a); now rewrite X2 | cbn; now rewrite X3].
    + apply talk_ret in T as [-> _]. exists [n]. split; [eexists; reflexivity | now left].
Qed.
