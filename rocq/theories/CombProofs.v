(** Proofs about combined robots. *)
From Coq Require Import Sorted.
From Verif Require Import HwTypes SMap SMapProofs HwModel HwSpec HwProofs HwMgr HwBuilt HwInit HwClaims CombModel CombSpec.

Lemma set_insert_end out r : (forall x, In x out -> slt x r) -> set_insert r out = out ++ [r].
Proof.
  induction out as [|y out IH]; intros H; [reflexivity|]. cbn. pose proof (H y (or_introl eq_refl)) as Hy. unfold slt in Hy.
  rewrite String.compare_antisym, Hy. cbn. rewrite IH; [reflexivity|]. intros x Hx. apply H. right; exact Hx.
Qed.

Lemma incr_sorted l : increasing l -> StronglySorted slt l.
Proof.
  induction l as [|a l IH]; intros H; constructor.
  - apply IH. intros i j x y Hij Hi Hj. apply (H (S i) (S j)); auto; lia.
  - apply Forall_forall. intros x Hx. apply In_nth_error in Hx as (j & Hj). apply (H 0 (S j)); auto. lia.
Qed.

Lemma filter_resources_eq have res : increasing res ->
  filter_resources have res = filter (fun r => existsb (String.eqb r) have) res.
Proof.
  intros Hs. apply incr_sorted in Hs. unfold filter_resources.
  assert (G : forall out, (forall x y, In x out -> In y res -> slt x y) ->
     fold_left (fun out r => if existsb (String.eqb r) have then set_insert r out else out) res out = out ++ filter (fun r => existsb (String.eqb r) have) res).
  { induction Hs as [|a res Hs IH Ha]; intros out Ho; cbn [fold_left filter]; [rewrite app_nil_r; reflexivity|].
    destruct (existsb (String.eqb a) have).
    - rewrite set_insert_end by (intros x Hx; apply Ho; [exact Hx|left; reflexivity]). rewrite IH; [rewrite <- app_assoc; reflexivity|].
      intros x y Hx Hy. apply in_app_or in Hx as [Hx|[<-|[]]]; [apply Ho; [exact Hx|right; exact Hy]|]. rewrite Forall_forall in Ha. auto.
    - apply IH. intros x y Hx Hy. apply Ho; [exact Hx|right; exact Hy]. }
  apply (G []). intros x y [].
Qed.

(** What the part is asked for. *)
Definition has_of (m : mgr) (T r : string) : bool := existsb (String.eqb T) (im_names m) && existsb (String.eqb r) (iface_resources T m).

Lemma filter_false {A} (l : list A) : filter (fun _ => false) l = [].
Proof. induction l; auto. Qed.

Lemma filter_claims_eq m claims : (forall f, In f claims -> increasing (ir_res f)) ->
  filter_claims m claims = concerned_claims (has_of m) claims.
Proof.
  intros H. unfold filter_claims, concerned_claims.
  assert (G : forall out, fold_left (fun out f => if existsb (String.eqb (ir_iface f)) (im_names m) then
      let fr := filter_resources (iface_resources (ir_iface f) m) (ir_res f) in match fr with [] => out | _ => out ++ [mkIface (ir_iface f) fr] end else out) claims out =
    out ++ filter (fun f => match ir_res f with [] => false | _ => true end) (map (fun f => mkIface (ir_iface f) (filter (has_of m (ir_iface f)) (ir_res f))) claims)).
  { induction claims as [|f claims IH]; intros out; cbn [fold_left map filter]; [rewrite app_nil_r; reflexivity|].
    assert (Hf : forall f, In f claims -> increasing (ir_res f)) by (intros; apply H; right; auto).
    destruct (existsb (String.eqb (ir_iface f)) (im_names m)) eqn:E.
    - cbn zeta. rewrite filter_resources_eq by (apply H; left; reflexivity).
      assert (Ef : filter (has_of m (ir_iface f)) (ir_res f) = filter (fun r => existsb (String.eqb r) (iface_resources (ir_iface f) m)) (ir_res f)).
      { apply filter_ext. intros r. unfold has_of. rewrite E. reflexivity. }
      rewrite Ef. cbn [ir_res]. clear Ef. destruct (filter (fun r => existsb (String.eqb r) (iface_resources (ir_iface f) m)) (ir_res f)); rewrite (IH Hf); [reflexivity|]. rewrite <- app_assoc. reflexivity.
    - assert (Ef : filter (has_of m (ir_iface f)) (ir_res f) = []).
      { rewrite <- (filter_false (ir_res f)). apply filter_ext. intros r. unfold has_of. rewrite E. reflexivity. }
      rewrite Ef. cbn [ir_res]. apply (IH Hf). }
  apply (G []).
Qed.

Lemma concerned_nil has c : concerned_claims has (ci_claims c) = [] <-> touches has c = false.
Proof.
  unfold concerned_claims, touches. induction (ci_claims c) as [|f l IH]; [cbn; tauto|]. cbn [map filter existsb ir_res].
  assert (E : filter (has (ir_iface f)) (ir_res f) = [] <-> existsb (has (ir_iface f)) (ir_res f) = false).
  { induction (ir_res f) as [|r rs IHr]; [cbn; tauto|]. cbn. destruct (has (ir_iface f) r); [split; discriminate|exact IHr]. }
  destruct (filter (has (ir_iface f)) (ir_res f)) as [|x xs].
  - rewrite (proj1 E eq_refl). cbn. exact IH.
  - destruct (existsb (has (ir_iface f)) (ir_res f)); [split; discriminate|]. destruct E as [_ E]. discriminate (E eq_refl).
Qed.

Lemma filter_list_eq m l : claim_sets l -> filter_list m l = concerned (has_of m) l.
Proof.
  intros H. unfold filter_list, concerned.
  assert (G : forall out, fold_left (fun out c => match ci_claims c with [] => out ++ [mkInfo (ci_name c) (ci_type c) []]
      | _ => match filter_claims m (ci_claims c) with [] => out | fc => out ++ [mkInfo (ci_name c) (ci_type c) fc] end end) l out =
    out ++ map (fun c => mkInfo (ci_name c) (ci_type c) (concerned_claims (has_of m) (ci_claims c)))
      (filter (fun c => match ci_claims c with [] => true | _ => touches (has_of m) c end) l)).
  { induction l as [|c l IH]; intros out; cbn [fold_left map filter]; [rewrite app_nil_r; reflexivity|].
    assert (Hl : claim_sets l) by (intros x f Hx; apply H; right; exact Hx).
    pose proof (filter_claims_eq m (ci_claims c) (fun f => H c f (or_introl eq_refl))) as Ec. pose proof (concerned_nil (has_of m) c) as En.
    destruct (ci_claims c) as [|f fs] eqn:E.
    - rewrite (IH Hl). rewrite <- app_assoc. cbn. rewrite E. reflexivity.
    - rewrite <- E in *. rewrite Ec. destruct (concerned_claims (has_of m) (ci_claims c)) as [|x xs] eqn:Ef.
      + rewrite (proj1 En eq_refl). apply (IH Hl).
      + destruct (touches (has_of m) c); [|destruct En as [_ En]; discriminate (En eq_refl)]. rewrite (IH Hl), <- app_assoc. cbn. rewrite Ef. reflexivity. }
  apply (G []).
Qed.

Lemma existsb_in s l : existsb (String.eqb s) l = true <-> In s l.
Proof.
  rewrite existsb_exists. split; [intros (x & Hx & E); apply String.eqb_eq in E; subst; exact Hx|]. intros H. exists s. split; [exact H|apply String.eqb_refl].
Qed.

Lemma has_of_tells kd w m : (forall T, tk_rm (kd T) = true) -> built kd w m -> tells (has_of m) w m.
Proof.
  intros Hk Hb T r. unfold has_of. rewrite andb_true_iff, !existsb_in, names_in, (has_type_leaves kd w m T Hb), (resources_of kd w m T Hb (Hk T)), in_flat_map.
  unfold provides, rm_names, rm_get. split.
  - intros (_ & i & H1 & H2). exists i. split; [exact H1|]. apply sfind_in_keys; exact H2.
  - intros (i & H1 & H2). split; [intros E; rewrite E in H1; contradiction|]. exists i. split; [exact H1|]. apply sfind_in_keys; exact H2.
Qed.

Lemma concerned_ext has has' l : (forall T r, has T r = has' T r) -> concerned has l = concerned has' l.
Proof.
  intros H. unfold concerned.
  assert (E : forall c, touches has c = touches has' c).
  { intros c. unfold touches. induction (ci_claims c) as [|f fs IH]; [reflexivity|]. cbn. rewrite IH. f_equal.
    induction (ir_res f) as [|r rs IHr]; [reflexivity|]. cbn. rewrite IHr, H. reflexivity. }
  rewrite (filter_ext _ (fun c => match ci_claims c with [] => true | _ => touches has' c end)) by (intros c; rewrite E; reflexivity).
  apply map_ext. intros c. f_equal. unfold concerned_claims. f_equal. apply map_ext. intros f. f_equal. apply filter_ext. intros r. apply H.
Qed.

(** Non-combinable interface types provide no resources. *)
Lemma has_of_tells' kd w m : built kd w m ->
  forall T r, has_of m T r = true <-> tk_rm (kd T) = true /\ provides w m T r.
Proof.
  intros Hb T r. destruct (tk_rm (kd T)) eqn:Hk.
  - unfold has_of. rewrite andb_true_iff, !existsb_in, names_in, (has_type_leaves kd w m T Hb), (resources_of kd w m T Hb Hk), in_flat_map.
    unfold provides, rm_names, rm_get. split.
    + intros (_ & i & H1 & H2). split; [reflexivity|]. exists i. split; [exact H1|]. apply sfind_in_keys; exact H2.
    + intros (_ & i & H1 & H2). split; [intros E; rewrite E in H1; contradiction|]. exists i. split; [exact H1|]. apply sfind_in_keys; exact H2.
  - unfold has_of. destruct (built_inv _ _ _ Hb) as (_ & _ & _ & Hr). rewrite (Hr T), Hk. cbn. rewrite andb_false_r. split; [discriminate|intros [X _]; discriminate].
Qed.

Lemma filter_list_spec kd w m has l : built kd w m -> claim_sets l ->
  (forall T r, has T r = true <-> tk_rm (kd T) = true /\ provides w m T r) ->
  filter_list m l = concerned has l.
Proof.
  intros Hb Hl Ht. rewrite (filter_list_eq m l Hl). apply concerned_ext. intros T r. apply eq_true_iff_eq. rewrite Ht. apply has_of_tells'; exact Hb.
Qed.

(** A claim of a controller reaches a part iff the part provides it. *)
Lemma forwarded kd w m l T r : built kd w m -> claim_sets l ->
  ((exists c' f', In c' (filter_list m l) /\ In f' (ci_claims c') /\ ir_iface f' = T /\ In r (ir_res f')) <->
   (tk_rm (kd T) = true /\ provides w m T r) /\ exists c f, In c l /\ In f (ci_claims c) /\ ir_iface f = T /\ In r (ir_res f)).
Proof.
  intros Hb Hl. rewrite (filter_list_eq m l Hl). unfold concerned, concerned_claims. split.
  - intros (c' & f' & Hc & Hf & <- & Hr). apply in_map_iff in Hc as (c & <- & Hc). apply filter_In in Hc as [Hc _]. cbn in Hf.
    apply filter_In in Hf as [Hf _]. apply in_map_iff in Hf as (f & <- & Hf). cbn in *. apply filter_In in Hr as [Hr Hh].
    split; [apply (has_of_tells' kd w m Hb); exact Hh|]. exists c, f. auto.
  - intros (Hp & c & f & Hc & Hf & <- & Hr). apply (has_of_tells' kd w m Hb) in Hp.
    assert (Hin : In r (filter (has_of m (ir_iface f)) (ir_res f))) by (apply filter_In; auto).
    eexists; eexists. split; [|split; [|split]].
    + apply in_map_iff. exists c. split; [reflexivity|]. apply filter_In. split; [exact Hc|]. destruct (ci_claims c) as [|g gs] eqn:E; [contradiction|]. rewrite <- E in *.
      unfold touches. apply existsb_exists. exists f. split; [exact Hf|]. apply existsb_exists. eauto.
    + cbn. apply filter_In. split; [apply in_map_iff; exists f; split; [reflexivity|exact Hf]|]. cbn. destruct (filter _ (ir_res f)); [contradiction|reflexivity].
    + reflexivity.
    + exact Hin.
Qed.

(** ** prepareSwitch *)
Definition asked (ans : nat -> list cinfo -> list cinfo -> bool) (start stop : list cinfo) (p : part) : pcall :=
  PPrepare (pt_id p) (filter_list (pt_mgr p) start) (filter_list (pt_mgr p) stop)
    (ans (pt_id p) (filter_list (pt_mgr p) start) (filter_list (pt_mgr p) stop)).
Definition accepts (ans : nat -> list cinfo -> list cinfo -> bool) (start stop : list cinfo) (p : part) : bool :=
  ans (pt_id p) (filter_list (pt_mgr p) start) (filter_list (pt_mgr p) stop).

Lemma prepare_spec ans parts start stop cs r : comb_prepare ans parts start stop = (cs, r) ->
  (r = true /\ cs = map (asked ans start stop) parts /\ forallb (accepts ans start stop) parts = true) \/
  (r = false /\ exists pre p post, parts = pre ++ p :: post /\ cs = map (asked ans start stop) (pre ++ [p]) /\
     forallb (accepts ans start stop) pre = true /\ accepts ans start stop p = false).
Proof.
  revert cs r. induction parts as [|p parts IH]; intros cs r H; cbn [comb_prepare] in H; [injection H as <- <-; auto|]. cbn zeta in H.
  destruct (ans (pt_id p) (filter_list (pt_mgr p) start) (filter_list (pt_mgr p) stop)) eqn:E.
  - destruct (comb_prepare ans parts start stop) as [cs' r']. injection H as <- <-.
    assert (Ea : asked ans start stop p = PPrepare (pt_id p) (filter_list (pt_mgr p) start) (filter_list (pt_mgr p) stop) true) by (unfold asked; rewrite E; reflexivity).
    destruct (IH _ _ eq_refl) as [(-> & -> & H)|(-> & pre & q & post & -> & -> & H1 & H2)].
    + left. cbn. rewrite Ea. unfold accepts at 1. rewrite E. auto.
    + right. split; [reflexivity|]. exists (p :: pre), q, post. cbn. rewrite Ea. unfold accepts at 1. rewrite E. auto.
  - injection H as <- <-. right. split; [reflexivity|]. exists [], p, parts. cbn. unfold asked, accepts. rewrite E. auto.
Qed.

Lemma prepared_asked ans start stop l : prepared (map (asked ans start stop) l) = map pt_id (filter (accepts ans start stop) l).
Proof.
  induction l as [|p l IH]; [reflexivity|]. cbn [map prepared flat_map filter]. fold (prepared (map (asked ans start stop) l)). rewrite IH.
  replace (asked ans start stop p) with (PPrepare (pt_id p) (filter_list (pt_mgr p) start) (filter_list (pt_mgr p) stop) (accepts ans start stop p)) by reflexivity.
  destruct (accepts ans start stop p); reflexivity.
Qed.

(** ** init *)
Lemma load_part_iff env st n : (exists st', load_part env st n = Some st') <-> loadable env n.
Proof.
  unfold load_part, loadable. cbn zeta. destruct (ld_nh (env n)); [|split; [intros (? & ?); discriminate|intros (X & _); discriminate]].
  destruct (ld_type (env n)) as [ty|]; [|split; [intros (? & ?); discriminate|intros (_ & (? & X) & _); discriminate]].
  destruct (ld_declared (env n)), (ld_created (env n)); cbn; try (split; [intros (? & ?); discriminate|intros (_ & _ & X & Y & _); discriminate]).
  destruct (ld_init (env n)) as [[|]|]; split; try (intros (? & ?); discriminate); try (intros (_ & _ & _ & _ & X); discriminate); eauto 10.
Qed.
Lemma load_part_eq env st n st' : load_part env st n = Some st' -> st' = (fst st ++ [mkPart (length (fst st)) (ld_mgr (env n))], register_manager (snd st) (ld_mgr (env n))).
Proof.
  unfold load_part. cbn zeta. destruct (ld_nh (env n)), (ld_type (env n)), (ld_declared (env n) && ld_created (env n)); try discriminate.
  destruct (ld_init (env n)) as [[|]|]; try discriminate. intros [= <-]. reflexivity.
Qed.

Definition parts_from (env : string -> load_desc) (k : nat) (names : list string) : list part :=
  map (fun x => mkPart (fst x) (ld_mgr (env (snd x)))) (List.combine (seq k (length names)) names).
Lemma load_parts_spec env names : forall st st' r, load_parts env st names = (st', r) ->
  exists done rest, names = done ++ rest /\ Forall (loadable env) done /\
    st' = (fst st ++ parts_from env (length (fst st)) done, mgr_from env (snd st) done) /\
    (r = true <-> rest = []) /\ (forall n rest', rest = n :: rest' -> ~ loadable env n).
Proof.
  induction names as [|n names IH]; intros st st' r H; cbn in H.
  - injection H as <- <-. exists [], []. split; [reflexivity|]. split; [constructor|]. split; [destruct st; cbn; rewrite app_nil_r; reflexivity|]. split; [tauto|discriminate].
  - destruct (load_part env st n) as [st1|] eqn:E.
    + destruct (IH _ _ _ H) as (done & rest & -> & A1 & A2 & A3 & A4). exists (n :: done), rest. split; [reflexivity|].
      split; [constructor; [apply (load_part_iff env st n); eauto|exact A1]|]. split; [|auto].
      apply load_part_eq in E. rewrite A2, E. cbn [fst snd]. rewrite app_length. cbn [length]. rewrite Nat.add_1_r, <- app_assoc. reflexivity.
    + injection H as <- <-. exists [], (n :: names). split; [reflexivity|]. split; [constructor|]. split; [destruct st; cbn; rewrite app_nil_r; reflexivity|].
      split; [split; discriminate|]. intros n' rest' [= <- <-] L. apply (load_part_iff env st n) in L as (st1 & L). congruence.
Qed.

Lemma comb_init_spec env robots parts m r : comb_init env robots = ((parts, m), r) ->
  (robots = None /\ r = false /\ parts = []) \/
  exists names done rest, robots = Some names /\ names = done ++ rest /\ Forall (loadable env) done /\
    parts = parts_for env done /\ m = mgr_from env mgr_new done /\ (r = true <-> rest = []) /\
    (forall n rest', rest = n :: rest' -> ~ loadable env n).
Proof.
  unfold comb_init. destruct robots as [names|]; [|intros [= <- <- <-]; auto]. intros H. right. apply load_parts_spec in H as (done & rest & H1 & H2 & H3 & H4 & H5).
  injection H3 as -> ->. exists names, done, rest. repeat split; auto; apply H4.
Qed.

Lemma comb_init_true env names : snd (comb_init env (Some names)) = true <-> forall n, In n names -> loadable env n.
Proof.
  cbn. destruct (load_parts env ([], mgr_new) names) as [st r] eqn:E. cbn. apply load_parts_spec in E as (done & rest & -> & H1 & _ & H2 & H3). rewrite H2. split.
  - intros ->. rewrite app_nil_r. apply Forall_forall. exact H1.
  - intros H. destruct rest as [|n rest]; [reflexivity|]. exfalso. apply (H3 n rest eq_refl). apply H. apply in_or_app. right; left; reflexivity.
Qed.

Lemma mgr_from_leaves env T names : forall m, leaves T (mgr_from env m names) = leaves T m ++ flat_map (fun n => leaves T (ld_mgr (env n))) names.
Proof.
  induction names as [|n names IH]; intros m; cbn [mgr_from fold_left flat_map]; [rewrite app_nil_r; reflexivity|].
  fold (mgr_from env (register_manager m (ld_mgr (env n))) names). rewrite IH. destruct m as [i c nu re subs]. cbn [register_manager leaves].
  rewrite flat_map_app. cbn [flat_map]. rewrite app_nil_r, !app_assoc. reflexivity.
Qed.

Lemma some_part_owns env names w parts m T r :
  comb_init env (Some names) = ((parts, m), true) ->
  (provides w m T r <-> exists p, In p parts /\ provides w (pt_mgr p) T r).
Proof.
  intros H. apply comb_init_spec in H as [(? & _)|(ns & done & rest & E & -> & _ & -> & -> & _)]; [discriminate|]. unfold provides. rewrite mgr_from_leaves. cbn [leaves mgr_new sfind flat_map app].
  unfold parts_for. generalize 0 as k. clear E. induction done as [|n done IH]; intros k.
  - cbn. split; [intros (i & [] & _)|intros (p & [] & _)].
  - cbn [flat_map length seq List.combine map]. specialize (IH (S k)). split.
    + intros (i & Hi & Hr). apply in_app_or in Hi as [Hi|Hi].
      * exists (mkPart k (ld_mgr (env n))). split; [left; reflexivity|]. exists i. auto.
      * destruct IH as [IH _]. destruct IH as (p & Hp & Hx); [eauto|]. exists p. split; [right; exact Hp|exact Hx].
    + intros (p & [<-|Hp] & Hx).
      * destruct Hx as (i & Hi & Hr). exists i. split; [apply in_or_app; left; exact Hi|exact Hr].
      * destruct IH as [_ IH]. destruct IH as (i & Hi & Hr); [eauto|]. exists i. split; [apply in_or_app; right; exact Hi|exact Hr].
Qed.
