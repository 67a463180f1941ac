(** Property theorems about combined robots. *)
From Verif Require Import HwTypes SMap SMapProofs ConflictModel HwModel HwSpec HwProofs HwMgr HwBuilt HwInit HwClaims PropsHw CombModel CombSpec CombProofs.
Local Open Scope string_scope.
Local Open Scope list_scope.

(** Two parts: [sub0] has "pos" b c and "state" a c; [arm0] has "pos" a b. *)
Definition arm0 : mgr := reg mgr_new "pos" 0.
Definition parts0 : list part := [mkPart 0 arm0; mkPart 1 sub0].
Definition ctl (n : string) (claims : list iface_res) : cinfo := mkInfo n "T" claims.
Lemma built_sub0 : built kd0 w0 sub0.
Proof.
  assert (W : world_ok w0) by (intros i; unfold w0, obj_of; destruct i as [|[|[|i]]]; cbn [w_obj ho_map]; eexists; reflexivity).
  eapply (BReg _ _ (reg mgr_new "pos" 1) "state" 2); try reflexivity; [|cbn; lia].
  eapply (BReg _ _ mgr_new "pos" 1); try reflexivity; [apply BNew; exact W|cbn; lia].
Qed.

(** * C40 *)
Theorem C40_forwarded_list kd w m has l :
  built kd w m -> claim_sets l -> (forall T r, has T r = true <-> tk_rm (kd T) = true /\ provides w m T r) ->
  filter_list m l = concerned has l.
Proof. exact (filter_list_spec kd w m has l). Qed.
Print Assumptions C40_forwarded_list.
Theorem C40_claim_reaches_owner kd w m l T r : built kd w m -> claim_sets l ->
  ((exists c' f', In c' (filter_list m l) /\ In f' (ci_claims c') /\ ir_iface f' = T /\ In r (ir_res f')) <->
   (tk_rm (kd T) = true /\ provides w m T r) /\ exists c f, In c l /\ In f (ci_claims c) /\ ir_iface f = T /\ In r (ir_res f)).
Proof. exact (forwarded kd w m l T r). Qed.
Print Assumptions C40_claim_reaches_owner.
(** Whatever the combined robot offers, some part offers it, so every claim of a
    controller initialised with it is forwarded to some part. *)
Theorem C40_some_part_owns env names w parts m T r :
  comb_init env (Some names) = ((parts, m), true) ->
  (provides w m T r <-> exists p, In p parts /\ provides w (pt_mgr p) T r).
Proof. exact (some_part_owns env names w parts m T r). Qed.
Print Assumptions C40_some_part_owns.
Example C40_example :
  let l := [ctl "x" [mkIface "pos" ["a"; "c"]; mkIface "eff" ["a"]]; ctl "y" [mkIface "pos" ["a"]]; ctl "z" []] in
  built kd0 w0 sub0 /\ claim_sets l /\
  filter_list sub0 l = [ctl "x" [mkIface "pos" ["c"]]; ctl "z" []] /\
  filter_list arm0 l = [ctl "x" [mkIface "pos" ["a"]]; ctl "y" [mkIface "pos" ["a"]]; ctl "z" []].
Proof.
  cbv zeta. split; [exact built_sub0|]. split; [|vm_compute; auto].
  intros c f Hc Hf. apply sorted_increasing. cbn in Hc.
  destruct Hc as [<-|[<-|[<-|[]]]]; cbn in Hf.
  - destruct Hf as [<-|[<-|[]]]; repeat constructor.
  - destruct Hf as [<-|[]]; repeat constructor.
  - contradiction.
Qed.

(** * C41 *)
Theorem C41_without_entries m l c : In c l -> ci_claims c = [] -> claim_sets l ->
  In (mkInfo (ci_name c) (ci_type c) []) (filter_list m l).
Proof.
  intros Hc He Hl. rewrite (filter_list_eq m l Hl). unfold concerned. apply in_map_iff. exists c. split; [rewrite He; reflexivity|].
  apply filter_In. split; [exact Hc|]. rewrite He. reflexivity.
Qed.
Print Assumptions C41_without_entries.
(** A controller that has claim entries but claims nothing - every controller that
    uses only read-only interfaces - is reported to no part. *)
Theorem C41_empty_entries_refuted m c : ci_claims c <> [] -> (forall f, In f (ci_claims c) -> ir_res f = []) -> filter_list m [c] = [].
Proof.
  intros Hn He. assert (Hs : claim_sets [c]).
  { intros x f [<-|[]] Hf. rewrite (He f Hf). intros i j a b _ Hi. destruct i; discriminate. }
  rewrite (filter_list_eq m [c] Hs). unfold concerned. cbn [filter].
  assert (T : touches (has_of m) c = false).
  { unfold touches. clear Hn Hs. induction (ci_claims c) as [|f fs IH]; [reflexivity|]. cbn. rewrite (He f (or_introl eq_refl)). cbn. apply IH. intros g Hg. apply He. right; exact Hg. }
  destruct (ci_claims c) as [|f fs] eqn:E; [congruence|]. rewrite T. reflexivity.
Qed.
Print Assumptions C41_empty_entries_refuted.
Example C41_example : filter_list sub0 [ctl "z" []] = [ctl "z" []] /\
  (let c := ctl "joint_state_controller" [mkIface "state" []] in ci_claims c <> [] /\ (forall f, In f (ci_claims c) -> ir_res f = []) /\ filter_list sub0 [c] = []).
Proof. split; [reflexivity|]. cbv zeta. split; [discriminate|]. split; [intros f [<-|[]]; reflexivity|reflexivity]. Qed.

(** * C42 *)
Theorem C42_prepare_iff ans parts start stop cs r : comb_prepare ans parts start stop = (cs, r) ->
  (r = true <-> forall p, In p parts -> ans (pt_id p) (filter_list (pt_mgr p) start) (filter_list (pt_mgr p) stop) = true) /\
  (exists asked_parts rest, parts = asked_parts ++ rest /\
     cs = map (fun p => let s := filter_list (pt_mgr p) start in let e := filter_list (pt_mgr p) stop in PPrepare (pt_id p) s e (ans (pt_id p) s e)) asked_parts /\
     (r = true -> rest = []) /\
     (r = false -> exists pre p, asked_parts = pre ++ [p] /\
        (forall q, In q pre -> ans (pt_id q) (filter_list (pt_mgr q) start) (filter_list (pt_mgr q) stop) = true) /\
        ans (pt_id p) (filter_list (pt_mgr p) start) (filter_list (pt_mgr p) stop) = false)).
Proof.
  intros H. apply prepare_spec in H as [(-> & -> & H)|(-> & pre & p & post & -> & -> & H1 & H2)].
  - rewrite forallb_forall in H. split; [split; auto|]. exists parts, []. split; [rewrite app_nil_r; reflexivity|]. split; [reflexivity|]. split; [auto|discriminate].
  - rewrite forallb_forall in H1. split.
    + split; [discriminate|]. intros H. unfold accepts in H2. rewrite (H p) in H2; [discriminate|]. apply in_or_app; right; left; reflexivity.
    + exists (pre ++ [p]), post. split; [rewrite <- app_assoc; reflexivity|]. split; [reflexivity|]. split; [discriminate|]. intros _. exists pre, p. auto.
Qed.
Print Assumptions C42_prepare_iff.
Theorem C42_do_switch_all kd w has parts start stop : claim_sets start -> claim_sets stop ->
  (forall p, In p parts -> built kd w (pt_mgr p) /\ forall T r, has p T r = true <-> tk_rm (kd T) = true /\ provides w (pt_mgr p) T r) ->
  comb_do parts start stop = map (fun p => PDo (pt_id p) (concerned (has p) start) (concerned (has p) stop)) parts.
Proof.
  intros H1 H2 H. unfold comb_do. apply map_ext_in. intros p Hp. destruct (H p Hp) as [Hb Ht].
  rewrite !(filter_list_spec kd w (pt_mgr p) (has p)) by assumption. reflexivity.
Qed.
Print Assumptions C42_do_switch_all.
(** What a part is told in doSwitch is what it was asked in an accepted prepareSwitch. *)
Theorem C42_do_matches_prepare ans parts start stop cs : comb_prepare ans parts start stop = (cs, true) ->
  map (fun c => match c with PPrepare id s e _ => PDo id s e | c => c end) cs = comb_do parts start stop.
Proof.
  intros H. apply prepare_spec in H as [(_ & -> & _)|(? & _)]; [|discriminate]. unfold comb_do. rewrite map_map. apply map_ext. reflexivity.
Qed.
Print Assumptions C42_do_matches_prepare.
Example C42_example :
  let start := [ctl "x" [mkIface "pos" ["a"]]] in
  comb_prepare (fun id _ _ => Nat.eqb id 0) parts0 start [] = ([PPrepare 0 start [] true; PPrepare 1 [] [] false], false) /\
  snd (comb_prepare (fun _ _ _ => true) parts0 start []) = true.
Proof. vm_compute; auto. Qed.

(** * C43 *)
(** Exactly the parts asked before the refusing one stay prepared: no call takes it back. *)
Theorem C43_left_prepared ans parts start stop cs : comb_prepare ans parts start stop = (cs, false) ->
  exists pre p post, parts = pre ++ p :: post /\ prepared cs = map pt_id pre /\
    ans (pt_id p) (filter_list (pt_mgr p) start) (filter_list (pt_mgr p) stop) = false.
Proof.
  intros H. apply prepare_spec in H as [(? & _)|(_ & pre & p & post & -> & -> & H1 & H2)]; [discriminate|]. exists pre, p, post. split; [reflexivity|]. split; [|exact H2].
  rewrite prepared_asked, filter_app. cbn [filter]. rewrite H2, app_nil_r. f_equal. clear - H1. induction pre as [|a pre IH]; [reflexivity|]. cbn in *. apply andb_true_iff in H1 as [-> H1]. rewrite (IH H1). reflexivity.
Qed.
Print Assumptions C43_left_prepared.
Theorem C43_unprepared_refuted : exists ans parts start stop cs,
  comb_prepare ans parts start stop = (cs, false) /\ prepared cs <> [].
Proof. exists (fun id _ _ => Nat.eqb id 0), parts0, [ctl "x" [mkIface "pos" ["a"]]], []. eexists. split; [vm_compute; reflexivity|]. discriminate. Qed.
Print Assumptions C43_unprepared_refuted.
Theorem C43_first_refuses ans p parts start stop :
  ans (pt_id p) (filter_list (pt_mgr p) start) (filter_list (pt_mgr p) stop) = false ->
  prepared (fst (comb_prepare ans (p :: parts) start stop)) = [] /\ snd (comb_prepare ans (p :: parts) start stop) = false.
Proof. intros H. cbn [comb_prepare]. cbn zeta. rewrite H. split; reflexivity. Qed.
Print Assumptions C43_first_refuses.
Example C43_example : prepared (fst (comb_prepare (fun id _ _ => Nat.eqb id 0) parts0 [] [])) = [0] /\
  prepared (fst (comb_prepare (fun id _ _ => Nat.eqb id 1) parts0 [] [])) = [].
Proof. vm_compute; auto. Qed.

(** * C44 *)
(** The report is right exactly when all parts are done. *)
Theorem C44_report_right_iff parts states :
  (forall p, In p parts -> states (pt_id p) = comb_switch_result parts states) <-> (forall p, In p parts -> states (pt_id p) = DONE).
Proof. reflexivity. Qed.
Print Assumptions C44_report_right_iff.
Theorem C44_delegation_refuted : forall p parts, exists states, states (pt_id p) = ONGOING /\ comb_switch_result (p :: parts) states = DONE.
Proof. intros p parts. exists (fun _ => ONGOING). split; reflexivity. Qed.
Print Assumptions C44_delegation_refuted.
Example C44_example : comb_switch_result parts0 (fun id => if Nat.eqb id 1 then ERROR else DONE) = DONE.
Proof. reflexivity. Qed.

(** * C45 *)
Theorem C45_init_iff env robots : snd (comb_init env robots) = true <-> exists names, robots = Some names /\ forall n, In n names -> loadable env n.
Proof.
  destruct robots as [names|]; [|split; [discriminate|intros (? & X & _); discriminate]]. rewrite comb_init_true. split; [eauto|]. intros (ns & [= <-] & H). exact H.
Qed.
Print Assumptions C45_init_iff.
Theorem C45_loaded_in_order env robots parts m r : comb_init env robots = ((parts, m), r) ->
  (robots = None /\ r = false /\ parts = []) \/
  exists names done rest, robots = Some names /\ names = done ++ rest /\ Forall (loadable env) done /\
    parts = parts_for env done /\ m = mgr_from env mgr_new done /\ (r = true <-> rest = []) /\
    (forall n rest', rest = n :: rest' -> ~ loadable env n).
Proof. exact (comb_init_spec env robots parts m r). Qed.
Print Assumptions C45_loaded_in_order.
Theorem C45_read_write_all env names parts m t p : comb_init env (Some names) = ((parts, m), true) ->
  comb_read parts t p = map (fun i => PRead i t p) (seq 0 (length names)) /\
  comb_write parts t p = map (fun i => PWrite i t p) (seq 0 (length names)).
Proof.
  intros H. apply comb_init_spec in H as [(? & _)|(ns & done & rest & E & -> & _ & -> & _ & R & _)]; [discriminate|]. rewrite (proj1 R eq_refl), app_nil_r in *. injection E as ->.
  unfold comb_read, comb_write, parts_for. rewrite !map_map. cbn [pt_id].
  assert (G : forall (X : Type) (f : nat -> X) k, map (fun x => f (fst x)) (List.combine (seq k (length done)) done) = map f (seq k (length done))).
  { intros X f. induction done as [|n done IH]; intros k; [reflexivity|]. cbn. rewrite IH. reflexivity. }
  split; [apply (G _ (fun i => PRead i t p))|apply (G _ (fun i => PWrite i t p))].
Qed.
Print Assumptions C45_read_write_all.
(** The combined robot is itself an orderly manager, so the lookup theorems (C37-C39) apply to it. *)
Theorem C45_combined_is_built kd w env names parts m r :
  comb_init env (Some names) = ((parts, m), r) -> world_ok w -> (forall n, In n names -> built kd w (ld_mgr (env n))) -> built kd w m.
Proof.
  intros H Hw Hb. apply comb_init_spec in H as [(? & _)|(ns & done & rest & E & -> & _ & _ & -> & _)]; [discriminate|]. injection E as ->.
  assert (G : forall m, built kd w m -> (forall n, In n done -> built kd w (ld_mgr (env n))) -> built kd w (mgr_from env m done)).
  { clear Hb. induction done as [|n done IH]; intros m Hm Hd; [exact Hm|]. cbn. apply IH; [apply BSub; [exact Hm|apply Hd; left; reflexivity]|]. intros x Hx. apply Hd. right; exact Hx. }
  apply G; [apply BNew; exact Hw|]. intros n Hn. apply Hb. apply in_or_app; left; exact Hn.
Qed.
Print Assumptions C45_combined_is_built.
Definition env0 (n : string) : load_desc :=
  mkLoad true (Some "t") true (negb (String.eqb n "bad")) (Some true) (if String.eqb n "arm" then arm0 else sub0).
Example C45_example :
  comb_init env0 (Some ["arm"; "base"]) = ((parts0, register_manager (register_manager mgr_new arm0) sub0), true) /\
  (let '((parts, _), r) := comb_init env0 (Some ["arm"; "bad"; "base"]) in parts = [mkPart 0 arm0] /\ r = false) /\
  snd (comb_init env0 None) = false.
Proof. vm_compute; auto. Qed.
