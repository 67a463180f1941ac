(** Property theorems about the exact course of a switch. *)
From Verif Require Import HwTypes Lifecycle ConflictModel CMModel CMSpec CMInv CMTrace CMCycle CMSwitch CMLife CMSession CMFinal CMSeqSpec CMSeq CMOnce CMDo PropsCM.
Open Scope Z_scope.
Local Open Scope string_scope.
Local Open Scope list_scope.

(** * C91 *)
Theorem C91_exact_cycle ls ops a b z asap tmo now ck pr mid t p hw :
  let sw := Switch a b z asap tmo now ck pr in
  let tr := trace ls ops in
  let before := (ops ++ [sw]) ++ mid in
  no_abandoned ops -> idle ls ops -> reply ls ops sw = ANone -> still_waiting ls (ops ++ [sw]) mid -> pending ls before ->
  (asap = true -> NoDup a) ->
  emits ls before (Cycle t p false hw) =
    map (fun c => EvCb (fst c) (CbUpdate p) t) (running_list (trace ls before)) ++
    (if cycled mid then [] else [EvDo (to_start tr a) (to_stop tr b)]) ++
    stops_of (trace ls before) tr b t ++
    (if asap then starts_apart hw (fun c => runsb (trace ls before) (fst c) && negb (named b c)) now tmo t (requested tr a)
     else starts_together hw now tmo t (requested tr a)).
Proof. cbv zeta. intros. eapply exact_cycle; eauto. Qed.
Print Assumptions C91_exact_cycle.
(** Three controllers start and two stop, in the order of the request; one name is given twice. *)
Example C91_example :
  let sw := sw0 ["c"; "b"] ["a"; "nobody"; "a"] BEST_EFFORT false in
  reply ld0 hist1 sw = ANone /\ pending ld0 ((hist1 ++ [sw]) ++ []) /\
  emits ld0 (hist1 ++ [sw]) (Cycle 102 1 false hwD) =
    [EvCb 0 (CbUpdate 1) 102;
     EvDo [mkInfo "b" "N" [mkIface "pos" ["j2"]]; mkInfo "c" "T" [mkIface "pos" ["j1"]]] [mkInfo "a" "T" [mkIface "pos" ["j1"]]];
     EvCb 0 CbStopping 102; EvCb 2 CbStarting 102; EvCb 1 CbStarting 102].
Proof. cbv zeta. split; [reflexivity|]. split; [exists 0; reflexivity|reflexivity]. Qed.

(** * C92 *)
Theorem C92_wait_loop ls ops a b z asap tmo now ck pr mid :
  let sw := Switch a b z asap tmo now ck pr in
  let before := (ops ++ [sw]) ++ mid in
  no_abandoned ops -> idle ls ops -> reply ls ops sw = ANone -> still_waiting ls (ops ++ [sw]) mid ->
  (pending ls before \/ finished ls before true) /\
  (pending ls before -> forall w,
     (reply ls before (Poll w true true) = ABool false <-> tmo <> 0 /\ tmo + 1000000000 <= w) /\
     (reply ls before (Poll w true true) = ANone <-> ~ (tmo <> 0 /\ tmo + 1000000000 <= w)) /\
     (reply ls before (Poll w true true) = ABool false -> idle ls (before ++ [Poll w true true]))).
Proof.
  cbv zeta. intros H1 H2 H3 H4. split; [eapply pending_or_finished; eauto|].
  intros Hp w. destruct (wait_exact ls ops a b z asap tmo now ck pr mid H1 H2 H3 H4 Hp) as (A & B & C). auto.
Qed.
Print Assumptions C92_wait_loop.
Example C92_example :
  let sw := sw0 ["c"] ["a"] STRICT false in
  let forever := Switch ["c"] ["a"] STRICT false 0 100 check_for_conflict agree in
  reply ld0 hist1 sw = ANone /\ pending ld0 ((hist1 ++ [sw]) ++ [Cycle 102 1 false hwO]) /\
  reply ld0 ((hist1 ++ [sw]) ++ [Cycle 102 1 false hwO]) (Poll 1000000004 true true) = ANone /\
  reply ld0 ((hist1 ++ [sw]) ++ [Cycle 102 1 false hwO]) (Poll 1000000005 true true) = ABool false /\
  reply ld0 (hist1 ++ [forever]) (Poll 999999999999999999 true true) = ANone.
Proof. cbv zeta. split; [reflexivity|]. split; [exists 0; reflexivity|]. repeat split; reflexivity. Qed.

(** * C79: a request switches a controller at most once ... *)
Theorem C79_at_most_once ls ops a b z asap tmo now ck pr mid :
  let sw := Switch a b z asap tmo now ck pr in
  no_abandoned ops -> idle ls ops -> reply ls ops sw = ANone -> still_waiting ls (ops ++ [sw]) mid ->
  no_reset mid -> NoDup a -> forall c, In c (loaded (trace ls ops)) ->
  (asap = true -> named a c = true -> named b c = true -> False) ->
  (count_cb is_stopping (fst c) (emits_all ls (ops ++ [sw]) mid) <= 1 /\
   count_cb is_starting (fst c) (emits_all ls (ops ++ [sw]) mid) <= 1)%nat.
Proof. cbv zeta. intros. eapply at_most_once; eauto. Qed.
Print Assumptions C79_at_most_once.
Example C79_example :
  let sw := sw0 ["b"; "c"] ["a"] STRICT true in
  let mid := [Cycle 102 1 false hwB; Cycle 103 1 false hwB; Cycle 104 1 false hwD; Cycle 105 1 false hwD] in
  reply ld0 hist1 sw = ANone /\ still_waiting ld0 (hist1 ++ [sw]) mid /\ no_reset mid /\
  map (fun c => (count_cb is_stopping (fst c) (emits_all ld0 (hist1 ++ [sw]) mid), count_cb is_starting (fst c) (emits_all ld0 (hist1 ++ [sw]) mid)))
      (loaded (trace ld0 hist1)) = [(1, 0); (0, 1); (0, 1)]%nat.
Proof. cbv zeta. split; [reflexivity|]. split; [vm_compute; auto 20|]. split; [repeat constructor|reflexivity]. Qed.

(** ... except that, with start_asap, a controller named in both lists is stopped and
    started in every cycle in which the hardware is ready for it. *)
Theorem C79_both_lists ls ops a b z tmo now ck pr mid t p hw ans :
  let sw := Switch a b z true tmo now ck pr in
  let before := (ops ++ [sw]) ++ mid in
  no_abandoned ops -> idle ls ops -> reply ls ops sw = ANone -> still_waiting ls (ops ++ [sw]) mid -> pending ls before ->
  NoDup a -> (forall k n info, hw_one hw k n info = ans n info) ->
  forall c, In c (loaded (trace ls ops)) -> named a c = true -> named b c = true ->
  lifecycle_of (fst c) (emits ls before (Cycle t p false hw)) =
    (if runsb (trace ls before) (fst c) then [CbStopping] else []) ++ [told (ans 0%nat (snd c)) (ans 1%nat (snd c)) now tmo t] /\
  (ans 0%nat (snd c) = DONE -> runs (trace ls (before ++ [Cycle t p false hw])) (fst c)).
Proof. cbv zeta. intros. eapply both_lists; eauto. Qed.
Print Assumptions C79_both_lists.

(** It happens any number of times in a row. *)
Theorem C79_stop_start_every_cycle_refuted :
  exists ls ops, let sw := sw0 ["b"; "c"] ["b"; "a"] BEST_EFFORT true in
    no_abandoned ops /\ idle ls ops /\ reply ls ops sw = ANone /\
    forall n, let mid := repeat (Cycle 102 1 false hwB) (S n) in
      still_waiting ls (ops ++ [sw]) mid /\ pending ls ((ops ++ [sw]) ++ mid) /\
      lifecycle_of 1 (emits ls ((ops ++ [sw]) ++ mid) (Cycle 102 1 false hwB)) = [CbStopping; CbStarting].
Proof.
  exists ld0, hist1. cbv zeta. unfold sw0.
  set (sw := Switch ["b"; "c"] ["b"; "a"] BEST_EFFORT true 5 100 check_for_conflict agree).
  assert (H1 : no_abandoned hist1) by (repeat constructor).
  assert (H2 : idle ld0 hist1) by reflexivity.
  assert (H3 : reply ld0 hist1 sw = ANone) by reflexivity.
  split; [exact H1|]. split; [exact H2|]. split; [exact H3|].
  set (ans := fun (n : nat) (info : cinfo) => if String.eqb (ci_name info) "b" then DONE else ONGOING).
  assert (Hans : forall k n info, hw_one hwB k n info = ans n info) by reflexivity.
  assert (Hnd : NoDup ["b"; "c"]) by (constructor; [simpl; intuition discriminate|repeat constructor; auto]).
  set (ib := mkInfo "b" "N" [mkIface "pos" ["j2"]]). set (ic := mkInfo "c" "T" [mkIface "pos" ["j1"]]).
  assert (Hb : In (1%nat, ib) (loaded (trace ld0 hist1))) by (vm_compute; right; left; reflexivity).
  assert (Hc : In (2%nat, ic) (loaded (trace ld0 hist1))) by (vm_compute; right; right; left; reflexivity).
  assert (P0 : pending ld0 ((hist1 ++ [sw]) ++ [])) by (exists 0; reflexivity).
  assert (S0 : phase_of (trace ld0 ((hist1 ++ [sw]) ++ [])) 2 <> PStarted) by (vm_compute; discriminate).
  set (hist := hist1) in *. clearbody hist. set (cyc := Cycle 102 1 false hwB).
  assert (Q : forall n, still_waiting ld0 (hist ++ [sw]) (repeat cyc n) /\ pending ld0 ((hist ++ [sw]) ++ repeat cyc n) /\
     phase_of (trace ld0 ((hist ++ [sw]) ++ repeat cyc n)) 2 <> PStarted /\
     ((0 < n)%nat -> runs (trace ld0 ((hist ++ [sw]) ++ repeat cyc n)) 1)).
  { induction n as [|n (W & P & S & _)].
    - split; [exact I|]. split; [exact P0|]. split; [exact S0|lia].
    - cbn [repeat]. rewrite (repeat_cons n). rewrite app_assoc.
      destruct (C15_start_asap ld0 hist ["b"; "c"] ["b"; "a"] BEST_EFFORT 5 100 check_for_conflict agree
                  (repeat cyc n) 102 1 false hwB ans H1 H2 H3 W P Hnd Hans) as [X Y].
      fold sw cyc in X, Y.
      destruct (X (2%nat, ic) Hc eq_refl eq_refl) as [_ X2]. cbn [fst snd] in X2.
      assert (Er : runsb (trace ld0 ((hist ++ [sw]) ++ repeat cyc n)) 2 = false).
      { destruct (runsb _ 2) eqn:Eb; [|reflexivity]. exfalso. apply S. apply runsb_spec. exact Eb. }
      rewrite Er in X2. change (phase_of (trace ld0 (((hist ++ [sw]) ++ repeat cyc n) ++ [cyc])) 2 = PWaiting) in X2.
      split; [|split; [|split]].
      + unfold still_waiting in *. clear - W. revert W. generalize (reach ld0 (hist ++ [sw])) as s, (repeat cyc n) as m.
        intros s m; revert s. induction m as [|o m IH]; intros s W; cbn [app no_reply] in *.
        * split; [left; unfold cyc, step; destruct (update _ _ _ _ s); reflexivity|exact I].
        * destruct W as [W1 W2]. split; auto.
      + apply Y. exists (2%nat, ic). split; [exact Hc|]. split; [reflexivity|]. cbn [fst]. split; congruence.
      + congruence.
      + intros _. apply (proj2 (C79_both_lists ld0 hist ["b"; "c"] ["b"; "a"] BEST_EFFORT 5 100 check_for_conflict agree
                  (repeat cyc n) 102 1 hwB ans H1 H2 H3 W P Hnd Hans (1%nat, ib) Hb eq_refl eq_refl)). reflexivity. }
  intros n. destruct (Q (S n)) as (W & P & _ & R). split; [exact W|]. split; [exact P|].
  specialize (R ltac:(lia)).
  destruct (C79_both_lists ld0 hist ["b"; "c"] ["b"; "a"] BEST_EFFORT 5 100 check_for_conflict agree
                  (repeat cyc (S n)) 102 1 hwB ans H1 H2 H3 W P Hnd Hans (1%nat, ib) Hb eq_refl eq_refl) as [E _].
  cbn [fst snd] in E. fold sw cyc in E. rewrite E. unfold runsb. rewrite R. reflexivity.
Qed.
Print Assumptions C79_stop_start_every_cycle_refuted.

(** * C10, second half: the lists given to doSwitch() *)
Theorem C10_do_lists ls ops pre x y post :
  no_abandoned ops -> trace ls ops = pre ++ EvDo x y :: post ->
  exists ops0 o rest, ops = ops0 ++ o :: rest /\ In (EvPrepare x y true) (emits ls ops0 o) /\
  let tr := trace ls ops0 in
  (exists startn stopn,
     ((exists z asap tmo now ck pr, o = Switch startn stopn z asap tmo now ck pr) \/
      (exists f now ck pr, o = Reload f now ck pr /\ startn = [] /\ stopn = map (fun c => ci_name (snd c)) (loaded tr))) /\
     x = to_start tr startn /\ y = to_stop tr stopn) /\
  NoDup x /\ NoDup y /\ forall c, In c x -> In c y -> False.
Proof.
  intros N E. destruct (do_prepared false _ HIdle x y post pre (C09_hook_protocol ls ops) E) as [D|D]; [discriminate D|].
  destruct (event_from ls ops (EvPrepare x y true)) as (ops0 & o & rest & Eo & I).
  { rewrite E. apply in_or_app. auto. }
  exists ops0, o, rest. split; auto. split; auto.
  apply (C10_hook_lists ls ops0 o x y true); auto.
  unfold no_abandoned in *. rewrite Eo in N. apply Forall_app in N. apply N.
Qed.
Print Assumptions C10_do_lists.
Example C10_do_example : exists pre x y post,
  trace ld0 hist1 = pre ++ EvDo x y :: post /\ x <> [] .
Proof.
  destruct (in_split (EvDo [mkInfo "a" "T" [mkIface "pos" ["j1"]]] []) (trace ld0 hist1)) as (l1 & l2 & E).
  { vm_compute. tauto. }
  do 4 eexists. split; [exact E|discriminate].
Qed.
