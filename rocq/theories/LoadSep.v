(** Proofs about the loader of transmissions: loaded transmissions do not get in each other's way. *)
From Coq Require Import Lia.
From Verif Require Import SMapProofs TransSpec TransProofs TransHandle LoadModel LoadSpec ParseProofs LoadProofs LoadMain.
Local Open Scope string_scope.
Local Open Scope list_scope.
Local Open Scope nat_scope.

Lemma nodup_flat {T U} (f : T -> list U) l :
  (forall x, In x l -> NoDup (f x)) ->
  (forall x y a, In x l -> In y l -> x <> y -> In a (f x) -> ~ In a (f y)) -> NoDup l -> NoDup (flat_map f l).
Proof.
  intros H1 H2 ND. induction ND as [|x l N ND IH]; cbn; [constructor|].
  assert (A : forall a, In a (f x) -> ~ In a (flat_map f l)).
  { intros a Ha Hf. apply in_flat_map in Hf. destruct Hf as (y & Hy & Hay).
    apply (H2 x y a); [now left | now right | | exact Ha | exact Hay]. intros ->. contradiction. }
  assert (B : NoDup (flat_map f l)).
  { apply IH; [intros y Hy; apply H1; now right|]. intros y z a Hy Hz. apply H2; now right. }
  pose proof (H1 x (or_introl eq_refl)) as C. clear - A B C.
  induction C as [|a fx N C IH]; cbn; [exact B|]. constructor.
  - intros H. apply in_app_or in H. destruct H as [H|H]; [contradiction|]. apply (A a); [now left | exact H].
  - apply IH. intros b Hb. apply A. now right.
Qed.
Lemma nodup_map {T U} (f : T -> U) l : (forall x y, In x l -> In y l -> f x = f y -> x = y) -> NoDup l -> NoDup (map f l).
Proof.
  intros H ND. induction ND as [|x l N ND IH]; cbn; constructor.
  - intros Hx. apply in_map_iff in Hx. destruct Hx as (y & E & Hy). apply N. rewrite (H x y); auto; [now left | now right].
  - apply IH. intros y z Hy Hz. apply H; now right.
Qed.

Section Sep.
Context (A : larith).
Notation loader := (loader A).
Notation inv := (inv A). Notation ext := (ext A).

Lemma quantities_nodup K (h : handle A) : NoDup (quantities A K h).
Proof.
  destruct K; cbn; repeat (constructor; [cbn; try (destruct (empty _)); try (destruct (empty _)); cbn; intuition discriminate|]); try constructor.
  destruct (empty (d_absolute_position _)), (empty (d_torque_sensor _)); cbn; repeat constructor; cbn; intuition discriminate.
Qed.
Lemma command_quantities K (h : handle A) k : commands K = Some k -> quantities A K h = [quantity_of k].
Proof. destruct K; cbn; intros [= <-]; reflexivity. Qed.

(** Names and variables on the side a handle writes to. *)
Definition tnames (K : hkind) (i : transmission_info) : list string :=
  if toward_joints K then map ji_name (ti_joints i) else map ai_name (ti_actuators i).
Definition base (l : loader) (n : string) : addr := match sfind n (l_raw A l) with Some r => rj_base r | None => 0 end.
Definition joint_off (K : hkind) (q : quantity) : nat :=
  match commands K with
  | Some Pos => 3 | Some Vel => 4 | Some Eff => 5
  | None => match q with Position => 0 | Velocity => 1 | Effort => 2 | AbsolutePosition => 6 | TorqueSensor => 7 end
  end.
Definition act_var (K : hkind) (l : loader) (q : quantity) (n : string) : addr :=
  match commands K with
  | Some k => match tget k (l_act_cmd A l) with Some m => match sfind n m with Some a => a | None => 0 end | None => 0 end
  | None => match l_act_state A l with
            | Some m => match sfind n m with
                        | Some x => match q with Velocity => as_vel x | Effort => as_eff x | _ => as_pos x end
                        | None => 0 end
            | None => 0 end
  end.
Definition tvar (K : hkind) (l : loader) (q : quantity) (n : string) : addr :=
  if toward_joints K then base l n + joint_off K q else act_var K l q n.

Lemma addrs_entries {T} names (m : smap T) xs (f : T -> addr) (g : string -> addr) :
  entries names m xs -> (forall n x, In n names -> sfind n m = Some x -> g n = f x) ->
  addrs (map (fun x => Some (f x)) xs) = map g names.
Proof.
  unfold entries. induction 1 as [|n x names xs E F IH]; intros H; cbn; [reflexivity|].
  rewrite (H n x (or_introl eq_refl) E). f_equal. apply IH. intros n' x' Hn. apply H. now right.
Qed.

Lemma joint_state l n mj x : inv l -> s_get (l_jnt_state A l) = Some mj -> sfind n mj = Some x ->
  exists r, sfind n (l_raw A l) = Some r /\ x = mkJntState (rj_base r) (rj_base r + 1) (rj_base r + 2) (Some (rj_base r + 6)) (Some (rj_base r + 7)).
Proof.
  intros I G F. rewrite bare_get in G by apply I. destruct (s_on _); [|discriminate]. injection G as <-.
  rewrite (inv_state _ _ I) in F. destruct (sfind n (l_raw A l)) as [r|] eqn:E; [|discriminate].
  cbn in F. injection F as <-. exists r. split; [reflexivity|]. destruct (inv_raw _ _ I n r E) as (H1 & H2 & _).
  unfold state_handle. now rewrite H1, H2.
Qed.
Lemma joint_cmd l k n mj x : inv l -> s_get (tget k (l_jnt_cmd A l)) = Some mj -> sfind n mj = Some x ->
  exists r, sfind n (l_raw A l) = Some r /\ jc_cmd x = raw_cmd k r.
Proof.
  intros I G F. rewrite bare_get in G by apply I. destruct (s_on _); [|discriminate]. injection G as <-.
  destruct (inv_cmd _ _ I k n x F) as (r & E & ->). eauto.
Qed.

Lemma targets_named K i l h : inv l -> connects A K i l h ->
  targets A K h = flat_map (fun q => map (tvar K l q) (tnames K i)) (quantities A K h).
Proof.
  intros I (_ & _ & C). unfold targets, target_data, tvar, tnames.
  destruct (commands K) as [k|] eqn:EK.
  - rewrite (command_quantities K h k EK). cbn [flat_map]. rewrite !app_nil_r.
    destruct C as (ma & acts & mj & jnts & ms & E1 & E2 & E3 & E4 & _ & _ & S1 & S2 & _).
    destruct (toward_joints K).
    + rewrite S2. eapply addrs_entries; [exact E4|]. intros n x _ F.
      destruct (joint_cmd l k n mj x I E3 F) as (r & E & ->). unfold base, joint_off. rewrite E, EK. destruct k; reflexivity.
    + rewrite S1. change (map Some acts) with (map (fun x => Some (id x)) acts). eapply addrs_entries; [exact E2|].
      intros n x _ F. unfold act_var. rewrite EK, E1, F. reflexivity.
  - destruct C as (ma & acts & mj & jnts & E1 & E2 & E3 & E4 & S1 & S2 & S3 & S4 & S5 & S6 & S7 & S8 & S9 & S10 & S11 & S12).
    assert (CH : forall f : jnt_state -> option addr, forall c, (forall r, f (mkJntState (rj_base r) (rj_base r + 1) (rj_base r + 2) (Some (rj_base r + 6)) (Some (rj_base r + 7))) = Some (rj_base r + c)) ->
      addrs (map f jnts) = map (fun n => base l n + c) (map ji_name (ti_joints i))).
    { intros f c Hf. clear - E3 E4 Hf I. unfold entries in E4. induction E4 as [|n x ns xs E F IH]; [reflexivity|].
      cbn [map]. destruct (joint_state l n mj x I E3 E) as (r & R & ->). unfold addrs at 1. cbn [flat_map]. rewrite Hf. cbn [app].
      unfold base at 1. rewrite R. f_equal. exact IH. }
    destruct K; try discriminate EK; cbn [toward_joints]; rewrite !flat_map_concat_map; f_equal; apply map_ext_in; intros q Hq.
    + unfold joint_off. cbn [commands]. destruct q.
      * rewrite S2. apply (CH (fun x => Some (js_pos x)) 0). intros r. cbn. now rewrite Nat.add_0_r.
      * rewrite S4. apply (CH (fun x => Some (js_vel x)) 1). reflexivity.
      * rewrite S6. apply (CH (fun x => Some (js_eff x)) 2). reflexivity.
      * rewrite S9. apply (CH js_abs 6). reflexivity.
      * rewrite S12. apply (CH js_tor 7). reflexivity.
    + unfold act_var. cbn [commands]. destruct Hq as [<-|[<-|[<-|[]]]].
      * rewrite S1. eapply addrs_entries; [exact E2|]. intros n x _ F. now rewrite E1, F.
      * rewrite S3. eapply addrs_entries; [exact E2|]. intros n x _ F. now rewrite E1, F.
      * rewrite S5. eapply addrs_entries; [exact E2|]. intros n x _ F. now rewrite E1, F.
Qed.

(** Names on the side written to are known to the robot. *)
Definition known (K : hkind) (l : loader) (n : string) : Prop :=
  if toward_joints K then exists r, sfind n (l_raw A l) = Some r
  else match commands K with
       | Some k => exists m a, tget k (l_act_cmd A l) = Some m /\ sfind n m = Some a
       | None => exists m x, l_act_state A l = Some m /\ sfind n m = Some x
       end.
Lemma entries_in {T} names (m : smap T) xs n : entries names m xs -> In n names -> exists x, In x xs /\ sfind n m = Some x.
Proof.
  unfold entries. induction 1 as [|n' x names xs E F IH]; [easy|]. intros [<-|H]; [exists x; cbn; auto|].
  destruct (IH H) as (y & Hy & E'). exists y; cbn; auto.
Qed.
Lemma entries_in' {T} names (m : smap T) xs x : entries names m xs -> In x xs -> exists n, In n names /\ sfind n m = Some x.
Proof.
  unfold entries. induction 1 as [|n' y names xs E F IH]; [easy|]. intros [<-|H]; [exists n'; cbn; auto|].
  destruct (IH H) as (z & Hz & E'). exists z; cbn; auto.
Qed.
Lemma connects_known K i l h n : inv l -> connects A K i l h -> In n (tnames K i) -> known K l n.
Proof.
  intros I (_ & _ & C) H. unfold known, tnames in *. destruct (commands K) as [k|] eqn:EK.
  - destruct C as (ma & acts & mj & jnts & ms & E1 & E2 & E3 & E4 & _). destruct (toward_joints K).
    + destruct (entries_in _ _ _ _ E4 H) as (x & _ & F). destruct (joint_cmd l k n mj x I E3 F) as (r & E & _). eauto.
    + destruct (entries_in _ _ _ _ E2 H) as (x & _ & F). eauto.
  - destruct C as (ma & acts & mj & jnts & E1 & E2 & E3 & E4 & _). destruct (toward_joints K).
    + destruct (entries_in _ _ _ _ E4 H) as (x & _ & F). destruct (joint_state l n mj x I E3 F) as (r & E & _). eauto.
    + destruct (entries_in _ _ _ _ E2 H) as (x & _ & F). eauto.
Qed.

Lemma state_field x q : In q [Position; Velocity; Effort] ->
  nth_error (state_vars x) (match q with Velocity => 1 | Effort => 2 | _ => 0 end) = Some (match q with Velocity => as_vel x | Effort => as_eff x | _ => as_pos x end).
Proof. intros [<-|[<-|[<-|[]]]]; reflexivity. Qed.

(** Variables on the side written to determine the name and the quantity. *)
Lemma tvar_inj K l (h h' : handle A) q q' n n' : inv l -> own_variables (l_act_state A l) (l_act_cmd A l) ->
  known K l n -> known K l n' -> In q (quantities A K h) -> In q' (quantities A K h') -> tvar K l q n = tvar K l q' n' -> n = n' /\ q = q'.
Proof.
  intros I (O1 & O2 & O3) N N' Q Q' E. unfold tvar, known in *. destruct (toward_joints K) eqn:T.
  - destruct N as (r & R), N' as (r' & R'). unfold base in E. rewrite R, R' in E.
    assert (B : forall q, joint_off K q < 8) by (intros p; unfold joint_off; destruct (commands K) as [[| |]|]; [| | |destruct p]; lia).
    pose proof (B q) as Bq. pose proof (B q') as Bq'.
    assert (n = n') as ->.
    { destruct (string_dec n n') as [|NE]; [assumption|]. pose proof (inv_apart _ _ I n n' r r' NE R R'). lia. }
    split; [reflexivity|]. rewrite R in R'. injection R' as <-. assert (E' : joint_off K q = joint_off K q') by lia.
    unfold joint_off in E'. destruct (commands K) as [k|] eqn:EK.
    + rewrite (command_quantities K h k EK) in Q. rewrite (command_quantities K h' k EK) in Q'. destruct Q as [<-|[]], Q' as [<-|[]]. reflexivity.
    + destruct q, q'; try discriminate E'; reflexivity.
  - unfold act_var in E. destruct (commands K) as [k|] eqn:EK.
    + destruct N as (m & a & M & F), N' as (m' & a' & M' & F'). rewrite M in M'. injection M' as <-. rewrite M, F, F' in E. subst a'.
      rewrite (command_quantities K h k EK) in Q. rewrite (command_quantities K h' k EK) in Q'. destruct Q as [<-|[]], Q' as [<-|[]].
      split; [|reflexivity]. destruct (string_dec n n') as [|NE]; [assumption|]. exfalso. exact (O3 k m n n' a a M NE F F' eq_refl).
    + destruct N as (m & x & M & F), N' as (m' & x' & M' & F'). rewrite M in M'. injection M' as <-. rewrite M, F, F' in E.
      assert (QQ : forall h p, In p (quantities A K h) -> In p [Position; Velocity; Effort]) by (destruct K; try discriminate EK; try discriminate T; auto).
      apply QQ in Q. apply QQ in Q'. pose proof (state_field x q Q) as F1. pose proof (state_field x' q' Q') as F2. rewrite E in F1.
      assert (n = n') as ->.
      { destruct (string_dec n n') as [|NE]; [assumption|]. exfalso.
        eapply (O2 m n n' x x' _ M NE F F'); eapply nth_error_In; eauto. }
      split; [reflexivity|]. rewrite F in F'. injection F' as <-.
      pose proof (O1 m n' x M F) as ND. rewrite NoDup_nth_error in ND.
      assert (J : (match q with Velocity => 1 | Effort => 2 | _ => 0 end) = (match q' with Velocity => 1 | Effort => 2 | _ => 0 end)).
      { apply ND; [|congruence]. apply nth_error_Some. rewrite F1. discriminate. }
      destruct Q as [<-|[<-|[<-|[]]]], Q' as [<-|[<-|[<-|[]]]]; try discriminate J; reflexivity.
Qed.

(** Joint variables are at or above [next], actuator variables below. *)
Definition jaddr (next : addr) (d : data) : Prop := forall q a, In a (addrs (side q d)) -> next <= a.
Definition aaddr (next : addr) (d : data) : Prop := forall q a, In a (addrs (side q d)) -> a < next.

Lemma in_addrs {T} (f : T -> option addr) xs a : In a (addrs (map f xs)) <-> exists x, In x xs /\ f x = Some a.
Proof.
  unfold addrs. rewrite flat_map_concat_map, map_map, <- flat_map_concat_map, in_flat_map. split; intros (x & H & E); exists x; (split; [exact H|]).
  - destruct (f x); [destruct E as [->|[]]; reflexivity | destruct E].
  - rewrite E. now left.
Qed.

Lemma sides_apart K i l h next : inv l -> below (l_act_state A l) (l_act_cmd A l) next ->
  (forall n r, sfind n (l_raw A l) = Some r -> next <= rj_base r) -> connects A K i l h ->
  aaddr next (h_act A h) /\ jaddr next (h_jnt A h).
Proof.
  intros I (B1 & B2) BR (_ & _ & C). destruct (commands K) as [k|].
  - destruct C as (ma & acts & mj & jnts & ms & E1 & E2 & E3 & E4 & _ & _ & S1 & S2 & S3). split.
    + intros q a. assert ({q = quantity_of k} + {q <> quantity_of k}) as [->|N] by decide equality; [|rewrite (proj1 (S3 q N)); easy].
      rewrite S1, in_addrs. intros (x & Hx & [= <-]). destruct (entries_in' _ _ _ _ E2 Hx) as (n & _ & F). eauto.
    + intros q a. assert ({q = quantity_of k} + {q <> quantity_of k}) as [->|N] by decide equality; [|rewrite (proj2 (S3 q N)); easy].
      rewrite S2, in_addrs. intros (x & Hx & [= <-]). destruct (entries_in' _ _ _ _ E4 Hx) as (n & _ & F).
      destruct (joint_cmd l k n mj x I E3 F) as (r & R & ->). apply BR in R. destruct k; cbn; lia.
  - destruct C as (ma & acts & mj & jnts & E1 & E2 & E3 & E4 & S1 & S2 & S3 & S4 & S5 & S6 & S7 & S8 & S9 & S10 & S11 & S12). split.
    + assert (AV : forall (f : act_state -> option addr) a, (forall x, f x = Some a -> In a (state_vars x)) -> In a (addrs (map f acts)) -> a < next).
      { intros f a Hf H. apply in_addrs in H. destruct H as (x & Hx & E). destruct (entries_in' _ _ _ _ E2 Hx) as (n & _ & F).
        eapply B1; [exact E1 | exact F | now apply Hf]. }
      assert (IA : forall f v a, if_all f acts v -> (forall x, f x = Some a -> In a (state_vars x)) -> In a (addrs v) -> a < next).
      { intros f v a (H1 & H2) Hf H. pose proof (all_some_spec f acts) as D. destruct (all_some f acts).
        - rewrite H1 in H by (now apply D). eauto.
        - rewrite H2 in H; [easy|]. intros Z. apply D in Z. discriminate. }
      intros [| | | |] a.
      * rewrite S1. apply AV. intros x [= <-]. cbn. auto.
      * rewrite S3. apply AV. intros x [= <-]. cbn. auto.
      * rewrite S5. apply AV. intros x [= <-]. cbn. auto.
      * eapply IA; [exact S7|]. intros x E. unfold state_vars. rewrite E. cbn. auto.
      * eapply IA; [exact S10|]. intros x E. unfold state_vars. rewrite E. cbn. right; right; right. apply in_or_app. right. now left.
    + assert (JV : forall (f : jnt_state -> option addr) a,
        (forall r, f (mkJntState (rj_base r) (rj_base r + 1) (rj_base r + 2) (Some (rj_base r + 6)) (Some (rj_base r + 7))) = Some a -> rj_base r <= a) ->
        In a (addrs (map f jnts)) -> next <= a).
      { intros f a Hf H. apply in_addrs in H. destruct H as (x & Hx & E). destruct (entries_in' _ _ _ _ E4 Hx) as (n & _ & F).
        destruct (joint_state l n mj x I E3 F) as (r & R & ->). apply BR in R. apply Hf in E. lia. }
      intros [| | | |] a; [rewrite S2 | rewrite S4 | rewrite S6 | rewrite S9 | rewrite S12]; apply JV; cbn; intros r [= <-]; lia.
Qed.

Lemma loaded_separate K infos l next : inv l -> sourced A infos l -> (forall K, ssorted (s_mine (iface A K l))) ->
  below (l_act_state A l) (l_act_cmd A l) next -> own_variables (l_act_state A l) (l_act_cmd A l) ->
  (forall n r, sfind n (l_raw A l) = Some r -> next <= rj_base r) ->
  unshared (fun i => if toward_joints K then map ji_name (ti_joints i) else map ai_name (ti_actuators i)) infos ->
  all_separate A K (map snd (s_mine (iface A K l))).
Proof.
  intros I S SO B O BR (U1 & U2). change (unshared (tnames K) infos) with ((forall i, In i infos -> NoDup (tnames K i)) /\
    forall i i' n, In i infos -> In i' infos -> ti_name i <> ti_name i' -> In n (tnames K i) -> ~ In n (tnames K i')) in *.
  assert (CN : forall n h, In (n, h) (s_mine (iface A K l)) -> exists i, In i infos /\ ti_name i = n /\ connects A K i l h).
  { intros n h H. apply S. now apply sfind_in. }
  split.
  - rewrite flat_map_concat_map, map_map, <- flat_map_concat_map. apply nodup_flat.
    + intros (n & h) H. cbn. destruct (CN n h H) as (i & Hi & _ & C). rewrite (targets_named K i l h I C).
      apply nodup_flat; [| |apply quantities_nodup].
      * intros q Hq. apply nodup_map; [|now apply U1]. intros x y Hx Hy E.
        eapply (tvar_inj K l h h q q x y); eauto using connects_known.
      * intros q q' a Hq Hq' NE Ha Ha'. apply in_map_iff in Ha, Ha'. destruct Ha as (x & <- & Hx), Ha' as (y & E & Hy).
        apply NE. symmetry. eapply (tvar_inj K l h h q' q y x); eauto using connects_known.
    + intros (n & h) (n' & h') a H H' NE Ha Ha'. cbn in *.
      destruct (CN n h H) as (i & Hi & En & C). destruct (CN n' h' H') as (i' & Hi' & En' & C').
      rewrite (targets_named K i l h I C) in Ha. rewrite (targets_named K i' l h' I C') in Ha'.
      apply in_flat_map in Ha, Ha'. destruct Ha as (q & Hq & Ha), Ha' as (q' & Hq' & Ha').
      apply in_map_iff in Ha, Ha'. destruct Ha as (x & <- & Hx), Ha' as (y & E & Hy).
      destruct (tvar_inj K l h' h q' q y x) as (-> & _); eauto using connects_known.
      apply (U2 i i' x Hi Hi'); auto. intros NN. apply NE.
      assert (n = n') as -> by congruence. f_equal. apply sfind_in in H; [|apply SO]. apply sfind_in in H'; [|apply SO]. congruence.
    + pose proof (ssorted_nodup _ (SO K)) as ND. unfold skeys in ND. eapply NoDup_map_inv; exact ND.
  - intros a Ha Ht. apply in_flat_map in Ha, Ht. destruct Ha as (h & Hh & Ha), Ht as (h' & Hh' & Ht).
    apply in_map_iff in Hh, Hh'. destruct Hh as ((n & h1) & <- & Hh), Hh' as ((n' & h1') & <- & Hh'). cbn in *.
    destruct (CN n h1 Hh) as (i & _ & _ & C). destruct (CN n' h1' Hh') as (i' & _ & _ & C').
    destruct (sides_apart K i l h1 next I B BR C) as (SA & SJ). destruct (sides_apart K i' l h1' next I B BR C') as (SA' & SJ').
    unfold sources, targets, source_data, target_data in *. apply in_flat_map in Ha, Ht. destruct Ha as (q & _ & Ha), Ht as (q' & _ & Ht).
    destruct (toward_joints K).
    + apply SA in Ha. apply SJ' in Ht. lia.
    + apply SJ in Ha. apply SA' in Ht. lia.
Qed.

End Sep.
