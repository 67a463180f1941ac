(** Last steps towards the theorems of PropsCM.v, and the histories used in its examples. *)
From Verif Require Import HwTypes Lifecycle ConflictModel ConflictProofs CMModel CMSpec CMInv CMTrace CMCycle CMSwitch CMLife CMSession CMExcl CMHooks CMLoad CMRest.
Open Scope Z_scope.

(** An event that says something about the life of instance [i]. *)
Definition concerns (i : nat) (e : event) : bool :=
  match e with
  | EvLoaded j _ | EvDestroyed j => Nat.eqb i j
  | EvCb j (CbUpdate _) _ => false
  | EvCb j _ _ => Nat.eqb i j
  | _ => false
  end.

Lemma phase_no_concern i e : Forall (fun x => concerns i x = false) e -> forall p, fold_left (phase_step i) e p = p.
Proof.
  induction 1 as [|x e Hx He IH]; intros p; simpl; [reflexivity|]. rewrite IH.
  destruct x as [j c t|j y|j| | | |]; simpl in *; auto; try (rewrite Hx; reflexivity). destruct c; simpl in *; auto; rewrite Hx; reflexivity.
Qed.

Lemma runs_iff tr i : runs tr i <->
  exists pre t post, tr = pre ++ EvCb i CbStarting t :: post /\ Forall (fun x => concerns i x = false) post.
Proof.
  split.
  - unfold runs. induction tr as [|x tr IH] using rev_ind; [discriminate|]. rewrite phase_snoc. intros H.
    destruct (concerns i x) eqn:Hc.
    + destruct x as [j c t|j y|j| | | |]; try discriminate.
      * destruct c; simpl in *; try discriminate; rewrite Hc in H; try discriminate.
        apply Nat.eqb_eq in Hc; subst. exists tr, t, []. split; [reflexivity|constructor].
      * simpl in *; rewrite Hc in H; discriminate.
      * simpl in *; rewrite Hc in H; discriminate.
    + assert (phase_of tr i = PStarted) as Hp.
      { rewrite <- H. symmetry. apply (phase_no_concern i [x]). constructor; [exact Hc|constructor]. }
      destruct (IH Hp) as (pre & t & post & -> & F). exists pre, t, (post ++ [x]).
      split; [rewrite <- app_assoc; reflexivity|]. apply Forall_app; split; auto.
  - intros (pre & t & post & -> & F). unfold runs, phase_of. rewrite fold_left_app. simpl. rewrite Nat.eqb_refl.
    apply phase_no_concern; exact F.
Qed.

Lemma updates_run ls ops pre i p t post : trace ls ops = pre ++ EvCb i (CbUpdate p) t :: post ->
  exists pre1 t0 pre2, pre = pre1 ++ EvCb i CbStarting t0 :: pre2 /\ Forall (fun x => concerns i x = false) pre2.
Proof. intros H. apply runs_iff. apply (trace_ok1_at _ _ _ _ _ H). Qed.

Lemma callbacks_loaded ls ops pre i c t post : no_abandoned ops -> trace ls ops = pre ++ EvCb i c t :: post ->
  In i (map fst (loaded pre)).
Proof.
  intros Hna H. pose proof (trace_ok2 ls ops Hna) as A. apply (proj1 (along_spec ok2 [] _)) with (2 := H) in A. exact A.
Qed.

Lemma destroyed_stopped ls ops pre i post : trace ls ops = pre ++ EvDestroyed i :: post ->
  In i (map fst (loaded pre)) /\ ~ runs pre i.
Proof. intros H. apply (trace_ok1_at _ _ _ _ _ H). Qed.

Lemma cycle_plain ls ops t p hw : exists rest,
  emits ls ops (Cycle t p false hw) = map (fun c => EvCb (fst c) (CbUpdate p) t) (running_list (trace ls ops)) ++ rest /\
  Forall (fun e => is_update e = false) rest.
Proof.
  destruct (cycle_shape ls ops t p false hw) as (d & st & sa & E & Hd & Hs & Ha). cbn [app] in E.
  exists (d ++ st ++ sa). split; [exact E|]. apply Forall_app; split; [|apply Forall_app; split].
  - destruct Hd as [->|(a & b & ->)]; repeat constructor.
  - eapply Forall_impl; [|exact Hs]. intros [? []| | | | | |]; simpl; congruence.
  - eapply Forall_impl; [|exact Ha]. intros [? []| | | | | |]; simpl; congruence.
Qed.

Lemma stops_before_starts ls ops t p hw x e1 y e2 :
  emits ls ops (Cycle t p false hw) = x ++ e1 :: y ++ e2 :: [] \/
  (exists z, emits ls ops (Cycle t p false hw) = x ++ e1 :: y ++ e2 :: z) ->
  start_like e1 = true -> is_stopping e2 = true -> False.
Proof.
  intros H H1 H2. assert (exists z, emits ls ops (Cycle t p false hw) = x ++ e1 :: y ++ e2 :: z) as (z & E) by (destruct H as [H|H]; eauto). clear H.
  destruct (cycle_shape ls ops t p false hw) as (d & st & sa & E' & Hd & Hs & Ha). cbn [app] in E'. rewrite E' in E. clear E'.
  assert (Hpre : exists u, Forall (fun e => start_like e = false) u /\ map (fun c => EvCb (fst c) (CbUpdate p) t) (running_list (trace ls ops)) ++ d ++ st ++ sa = u ++ sa).
  { exists (map (fun c => EvCb (fst c) (CbUpdate p) t) (running_list (trace ls ops)) ++ d ++ st). rewrite <- !app_assoc. split; [|reflexivity].
    apply Forall_app; split; [|apply Forall_app; split].
    - apply Forall_forall. intros e He. apply in_map_iff in He as (c & <- & _). reflexivity.
    - destruct Hd as [->|(a & b & ->)]; repeat constructor.
    - eapply Forall_impl; [|exact Hs]. intros [? []| | | | | |]; simpl; congruence. }
  destruct Hpre as (u & Fu & Eu). rewrite Eu in E. clear Eu Hd Hs d st.
  revert x E. induction u as [|a u IH]; intros x E.
  - cbn [app] in E. rewrite E in Ha. apply Forall_app in Ha as [_ Ha]. inversion Ha as [|? ? _ Ha']; subst.
    apply Forall_app in Ha' as [_ Ha']. inversion Ha' as [|? ? Hx _]; subst. destruct e2 as [? []| | | | | |]; simpl in *; congruence.
  - inversion Fu; subst. destruct x as [|b x]; cbn [app] in E; injection E as -> E.
    + congruence.
    + eapply IH; eauto.
Qed.

Lemma hooks_follow ls ops : hooks_ok false HIdle (trace ls ops).
Proof. apply hi_ok with (s := reach ls ops). apply hook_reach. discriminate. Qed.
Lemma hooks_follow_strict ls ops : no_reset ops -> hooks_ok true HIdle (trace ls ops).
Proof. intros H. apply hi_ok with (s := reach ls ops). apply hook_reach. auto. Qed.

Lemma distinct_at ls ops pre post : trace ls ops = pre ++ post ->
  NoDup (map (fun c => ci_name (snd c)) (loaded pre)) /\
  loaded pre = filter (fun c => negb (destroyed pre (fst c))) (loads pre) /\ NoDup (map fst (loads pre)).
Proof.
  intros H. pose proof (prefix_ok1 _ _ _ _ H) as A. split; [apply names_distinct; exact A|]. apply loaded_filter; exact A.
Qed.

Lemma exclusive_default ls ops pre post : no_abandoned ops -> checks_with check_for_conflict ops ->
  trace ls ops = pre ++ post -> exclusive pre.
Proof. intros Hna Hc. apply exclusive_always; [exact Hna|]. eapply checks_sound; [apply default_check_sound|exact Hc]. Qed.

(** ** histories for the examples *)
Definition ld0 : list loader :=
  [mkLoader "base" [("T", CrObject); ("N", CrNull); ("X", CrThrow)]; mkLoader "other" [("N", CrObject); ("T", CrObject)]]%string.
Definition env0 (ty r : string) : load_env := mkEnv true (Some ty) (InitOk [mkIface "pos" [r]]).
Definition hwD : hw_answers := mkHw (fun _ => DONE) (fun _ _ _ => DONE).
Definition hwO : hw_answers := mkHw (fun _ => ONGOING) (fun _ _ _ => ONGOING).
Definition hwE : hw_answers := mkHw (fun _ => ERROR) (fun _ _ _ => ERROR).
(** "b" is ready, the others are not *)
Definition hwB : hw_answers :=
  mkHw (fun _ => ONGOING) (fun _ _ info => if String.eqb (ci_name info) "b" then DONE else ONGOING).
Definition agree (_ _ : list cinfo) : bool := true.
Definition refuse (_ _ : list cinfo) : bool := false.
Definition sw0 (start stop : list string) (z : Z) (asap : bool) : op := Switch start stop z asap 5 100 check_for_conflict agree.
(** a (j1), b (j2) and c (j1) are loaded. *)
Definition hist0 : list op := [Load "a" (env0 "T" "j1"); Load "b" (env0 "N" "j2"); Load "c" (env0 "T" "j1")].
(** ... and a is running. *)
Definition hist1 : list op := hist0 ++ [sw0 ["a"%string] [] STRICT false; Cycle 101 1 false hwD; Poll 0 true true].
