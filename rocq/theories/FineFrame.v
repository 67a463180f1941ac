(** The access sets of FineAccess.v cover what the steps do. *)
From Verif Require Import HwTypes Lifecycle CMModel CMSpec CMInv CMCycle CMLife FineModel FineSpec FineAccess FineBase.

Lemma same_refl x s : same x s s.
Proof. destruct x; cbn; auto. Qed.

Definition only (i : nat) (f : heap -> nat -> heap * list event) : Prop :=
  forall h j, j <> i -> fst (f h i) j = h j.
Ltac req i := unfold only, stop_body, start_request, stop_request, wait_request, abort_request, update_request, upd, is_running;
  let h := fresh in let j := fresh in let Hj := fresh in
  intros h j Hj; destruct (h i); cbn [fst]; try reflexivity; destruct (Nat.eqb_spec j i); first [contradiction|reflexivity].
Lemma only_start t i : only i (start_request t). Proof. req i. Qed.
Lemma only_stop t i : only i (stop_request t). Proof. req i. Qed.
Lemma only_wait t i : only i (wait_request t). Proof. req i. Qed.
Lemma only_abort t i : only i (abort_request t). Proof. req i. Qed.
Lemma only_stop_body t i : only i (stop_body t). Proof. req i. Qed.
Lemma only_update t p i : only i (update_request t p). Proof. req i. Qed.
Lemma only_mode md t i : only i (mode_request md t).
Proof. destruct md; [apply only_start|apply only_abort|apply only_wait]. Qed.
Lemma only_asap t hw sw k i l : forall h j, j <> i -> fst (for_each (asap_inner t hw sw k i) h l) j = h j.
Proof.
  induction l as [|c l IH]; intros h j Hj; cbn [for_each]; [reflexivity|].
  assert (E : fst (asap_inner t hw sw k i h c) j = h j).
  { unfold asap_inner. destruct (Nat.eqb i (sp_inst c)); [|reflexivity]. destruct (swstate_eqb _ _); [now apply only_start|]. destruct (_ || _); [now apply only_abort|now apply only_wait]. }
  destruct (asap_inner t hw sw k i h c) as [h1 e1]. specialize (IH h1 j Hj). destruct (for_each _ h1 l) as [h2 e2]. cbn in *. congruence.
Qed.

Lemma loop_frame s a s' l x : by_loop a = true -> fine_step s a = Some (s', l) -> ~ In (wr x) (loop_next s) -> f_nrt s' = f_nrt s /\ same x s' s.
Proof.
  intros Ha E Hx. destruct a as [c| | | | | |]; try discriminate Ha; cbn [fine_step] in E; unfold loop_next in Hx.
  - destruct (f_rt s); try discriminate E. injection E as <- <-. split; [reflexivity|]. destruct x; cbn; auto.
  - destruct (f_rt s); try discriminate E. injection E as <- <-. split; [reflexivity|]. destruct x; cbn; auto. exfalso. apply Hx. now left.
  - unfold f_loop in E. destruct (f_used s) as [u|]; [|discriminate E]. destruct (f_rt s) as [|b c|k [|] c e|k c e|c e|k c e|md k c e|k c e]; try discriminate E.
    + destruct (nth_error (f_list s u) k) as [sp|].
      * assert (O := only_start (c_t c) (sp_inst sp) (cm_heap (f_m s))). destruct (start_request _ _ _) as [h1 e1]. injection E as <- <-. split; [reflexivity|].
        destruct x; cbn; auto. apply O. intros ->. apply Hx. cbn. auto.
      * injection E as <- <-. split; [reflexivity|]. destruct x; cbn; auto.
    + destruct (nth_error (f_list s u) k) as [sp|].
      * destruct (is_running _ _); [|injection E as <- <-; split; [reflexivity|]; destruct x; cbn; auto].
        assert (O := only_stop (c_t c) (sp_inst sp) (cm_heap (f_m s))). destruct (stop_request _ _ _) as [h1 e1]. injection E as <- <-. split; [reflexivity|].
        destruct x; cbn; auto. apply O. intros ->. apply Hx. cbn. auto.
      * injection E as <- <-. split; [reflexivity|]. destruct x; cbn; auto.
    + destruct (nth_error (f_list s u) k) as [sp|].
      * assert (O : fst (update_request (c_t c) (c_p c) (cm_heap (f_m s)) (sp_inst sp)) = cm_heap (f_m s)) by (unfold update_request; destruct (cm_heap (f_m s) (sp_inst sp)); reflexivity).
        destruct (update_request _ _ _ _) as [h1 e1]. injection E as <- <-. split; [reflexivity|]. cbn in O. subst h1. destruct x; cbn; auto.
      * destruct (sw_do _); injection E as <- <-; (split; [reflexivity|]); destruct x; cbn; auto.
    + destruct (sw_started _); injection E as <- <-; (split; [reflexivity|]); destruct x; cbn; auto. exfalso. apply Hx. cbn. auto.
    + destruct (nth_error (cm_stop (f_m s)) k) as [i|].
      * assert (O := only_stop_body (c_t c) i (cm_heap (f_m s))). destruct (stop_body _ _ _) as [h1 e1]. injection E as <- <-. split; [reflexivity|].
        destruct x; cbn; auto. apply O. intros ->. apply Hx. cbn. auto.
      * injection E as <- <-. split; [reflexivity|]. destruct x; cbn; auto.
    + destruct (nth_error (cm_start (f_m s)) k) as [i|].
      * assert (O := only_mode md (c_t c) i (cm_heap (f_m s))). destruct (mode_request _ _ _ _) as [h1 e1]. injection E as <- <-. split; [reflexivity|].
        destruct x; cbn; auto. apply O. intros ->. apply Hx. cbn. auto.
      * destruct md; injection E as <- <-; (split; [reflexivity|]); destruct x; cbn; auto; exfalso; apply Hx; cbn; auto.
    + destruct (nth_error (cm_start (f_m s)) k) as [i|].
      * destruct (is_running _ _); [injection E as <- <-; split; [reflexivity|]; destruct x; cbn; auto|].
        assert (O := only_asap (c_t c) (c_hw c) (cm_sw (f_m s)) k i (f_list s (f_cur s)) (cm_heap (f_m s))). destruct (for_each _ _ _) as [h1 e1]. injection E as <- <-. split; [reflexivity|].
        destruct x; cbn; auto. apply O. intros ->. apply Hx. cbn. auto 10.
      * destruct (forallb _ _); injection E as <- <-; (split; [reflexivity|]); destruct x; cbn; auto; exfalso; apply Hx; cbn; auto 10.
Qed.

Lemma set_list_other s b b' l : b' <> b -> f_list (f_set_list s b l) b' = f_list s b'.
Proof. destruct s, b, b'; try reflexivity; intros []; reflexivity. Qed.

Lemma write_frame s b l p x : x <> Lst b -> same x (f_set_nrt (fst (f_write s b l)) p) s.
Proof.
  intros Hx. unfold f_write; cbn [fst]. destruct x; cbn; auto. change (f_list (f_set_list s b l) b0 = f_list s b0). apply set_list_other. congruence.
Qed.
Lemma refuse_frame s e x : x <> Lst (negb (f_cur s)) -> same x (fst (f_refuse s e)) s /\ f_rt (fst (f_refuse s e)) = f_rt s.
Proof.
  intros Hx. unfold f_refuse. assert (W := write_frame s (negb (f_cur s)) [] NIdle x Hx). unfold f_write in *. cbn [fst] in *. split; [exact W|reflexivity].
Qed.

Lemma lock_frame s a s' l x : by_lock a = true -> ros_up s a = true -> in_time s a = true -> fine_step s a = Some (s', l) -> ~ In (wr x) (lock_next s) ->
  (forall i, x = StateOf i -> forall sp e, f_nrt s = NReady (Some sp) e -> i <> sp_inst sp) -> f_rt s' = f_rt s /\ same x s' s.
Proof.
  intros Ha U T E Hx Hn. destruct a as [| | |q|w ok1 ok2| |]; try discriminate Ha; cbn [fine_step] in E; unfold lock_next in Hx.
  - destruct (f_nrt s); try discriminate E. destruct (f_entry q); [|discriminate E]. injection E as <- <-. split; [reflexivity|]. destruct x; cbn; auto.
  - apply andb_prop in U as [-> ->]. unfold in_time, gives_up in T. unfold f_poll in E. cbn [andb negb] in E.
    destruct (f_nrt s) as [|q| | | | | |f e| | | | | |tmo e]; try discriminate E.
    + destruct (match f_used s with Some _ => _ | None => _ end); injection E as <- <-; (split; [reflexivity|]); destruct x; cbn; auto.
    + destruct (match f_used s with Some _ => _ | None => _ end); injection E as <- <-; (split; [reflexivity|]); destruct x; cbn; auto.
    + rewrite Bool.negb_involutive in T. rewrite T in E. destruct (sw_do _); injection E as <- <-; (split; [reflexivity|]); destruct x; cbn; auto; exfalso; apply Hx; cbn; auto.
  - unfold f_step in E. destruct (f_nrt s) as [|q|q|q k r e|n env e|sp e|p e|f e|f e|k acc| |q|sw tmo e|tmo e] eqn:P; try discriminate E.
    + destruct (f_write s _ []) as [s1 u] eqn:W. injection E as <- <-. assert (F : x <> Lst (negb (f_cur s))) by (intros ->; apply Hx; cbn; auto).
      assert (G := write_frame s (negb (f_cur s)) [] (NCopy q 0 false (f_destroyed s (negb (f_cur s)))) x F). rewrite W in G. unfold f_write in W. injection W as <- <-. split; [reflexivity|exact G].
    + assert (F : x <> Lst (negb (f_cur s))) by (intros ->; apply Hx; cbn; auto). assert (FR := refuse_frame s e x F).
      assert (FW : forall l0 p, same x (f_set_nrt (fst (f_write s (negb (f_cur s)) l0)) p) s) by (intros; now apply write_frame). unfold f_write in *. cbn [fst] in FW.
      destruct (nth_error (f_list s (f_cur s)) k) as [sp|], q; try discriminate E.
      * injection E as <- <-. split; [reflexivity|apply FW].
      * destruct (String.eqb _ _); [destruct (is_running _ _)|]; injection E as <- <-; first [split; [reflexivity|apply FW]|split; [reflexivity|destruct x; cbn; auto]].
      * injection E as <- <-. split; [reflexivity|destruct x; cbn; auto].
      * destruct r; injection E as <- <-; [split; [reflexivity|destruct x; cbn; auto]|split; apply FR].
    + assert (F : x <> Lst (negb (f_cur s))) by (intros ->; apply Hx; cbn; auto). assert (FR := fun e => refuse_frame s e x F).
      destruct (existsb _ _); [injection E as <- <-; split; [reflexivity|exact (proj1 (FR []))]|]. destruct (negb _); [injection E as <- <-; split; [reflexivity|destruct x; cbn; auto]|].
      destruct (le_type env) as [ty|]; [|injection E as <- <-; split; [reflexivity|exact (proj1 (FR []))]]. destruct (construct _ _ _) as [[] ec]; [|injection E as <- <-; split; [reflexivity|exact (proj1 (FR []))]].
      destruct (le_init env); injection E as <- <-; split; try reflexivity; destruct x; cbn; auto; apply (proj1 (FR [])).
    + assert (F : x <> Lst (negb (f_cur s))) by (intros ->; apply Hx; cbn; auto). injection E as <- <-. split; [reflexivity|]. apply write_frame; exact F.
    + assert (F : x <> Cur) by (intros ->; apply Hx; cbn; auto). destruct p as [sp|]; injection E as <- <-; (split; [reflexivity|]); destruct x; cbn; auto; try congruence.
      unfold upd. destruct (Nat.eqb_spec i (sp_inst sp)) as [->|]; [|reflexivity]. exfalso. eapply Hn; reflexivity.
    + assert (F : x <> Lst f) by (intros ->; apply Hx; cbn; auto). injection E as <- <-. split; [reflexivity|]. apply write_frame; exact F.
    + destruct (nth_error _ _); injection E as <- <-; (split; [reflexivity|destruct x; cbn; auto]).
    + injection E as <- <-. split; [reflexivity|destruct x; cbn; auto].
    + destruct q; try discriminate E. destruct (switch_begin _ _ _ _ _ _ _ _ _ _) as [[m1 e] ok].
      destruct ok; injection E as <- <-; (split; [reflexivity|]); destruct x; cbn; auto; exfalso; apply Hx; cbn; auto 10.
    + injection E as <- <-. split; [reflexivity|]. destruct x; cbn; auto; exfalso; apply Hx; cbn; auto.
Qed.

(** * The steps depend on nothing else *)
Definition like (i : nat) (f : heap -> nat -> heap * list event) : Prop :=
  forall h h', h i = h' i -> snd (f h i) = snd (f h' i) /\ fst (f h i) i = fst (f h' i) i.
Ltac lik i := unfold like, stop_body, start_request, stop_request, wait_request, abort_request, update_request, upd, is_running;
  let h := fresh in let h' := fresh in let H := fresh in
  intros h h' H; rewrite <- H; destruct (h i) eqn:?; cbn [fst snd]; rewrite ?Nat.eqb_refl; split; congruence.
Lemma like_start t i : like i (start_request t). Proof. lik i. Qed.
Lemma like_stop t i : like i (stop_request t). Proof. lik i. Qed.
Lemma like_wait t i : like i (wait_request t). Proof. lik i. Qed.
Lemma like_abort t i : like i (abort_request t). Proof. lik i. Qed.
Lemma like_stop_body t i : like i (stop_body t). Proof. lik i. Qed.
Lemma like_update t p i : like i (update_request t p). Proof. lik i. Qed.
Lemma like_mode md t i : like i (mode_request md t).
Proof. destruct md; [apply like_start|apply like_abort|apply like_wait]. Qed.
Lemma like_asap t hw sw sw' k i l : sw_set_done sw = sw_set_done sw' -> forall h h', h i = h' i ->
  snd (for_each (asap_inner t hw sw k i) h l) = snd (for_each (asap_inner t hw sw' k i) h' l) /\
  fst (for_each (asap_inner t hw sw k i) h l) i = fst (for_each (asap_inner t hw sw' k i) h' l) i.
Proof.
  intros Es. assert (Et : timed_out sw t = timed_out sw' t) by (unfold timed_out; destruct sw, sw'; cbn in *; injection Es as -> -> -> -> ->; reflexivity).
  induction l as [|c l IH]; intros h h' Hh; cbn [for_each]; [auto|].
  assert (E : snd (asap_inner t hw sw k i h c) = snd (asap_inner t hw sw' k i h' c) /\ fst (asap_inner t hw sw k i h c) i = fst (asap_inner t hw sw' k i h' c) i).
  { unfold asap_inner. rewrite <- Et. destruct (Nat.eqb i (sp_inst c)); [|auto]. destruct (swstate_eqb _ _); [now apply like_start|]. destruct (_ || _); [now apply like_abort|now apply like_wait]. }
  destruct (asap_inner t hw sw k i h c) as [h1 e1], (asap_inner t hw sw' k i h' c) as [h1' e1']. cbn in E. destruct E as [-> E].
  destruct (IH _ _ E) as [I1 I2]. destruct (for_each _ h1 l) as [h2 e2], (for_each _ h1' l) as [h2' e2']. cbn in *. now subst.
Qed.

Lemma running_at h h' i : h i = h' i -> is_running h i = is_running h' i.
Proof. unfold is_running. now intros ->. Qed.

Lemma done_started sw sw' : sw_set_done sw = sw_set_done sw' -> sw_started sw = sw_started sw' /\ sw_asap sw = sw_asap sw' /\
  (forall t hw, start_mode t hw sw = start_mode t hw sw') /\ sw_set_done (sw_set_started sw) = sw_set_done (sw_set_started sw').
Proof. destruct sw, sw'; cbn. intros H. injection H as -> -> -> -> ->. repeat split. Qed.

Lemma loop_local s1 s2 : f_rt s1 = f_rt s2 -> f_used s1 <> None -> f_used s2 <> None ->
  (forall a, In a (loop_next s1) -> same (at_ a) s1 s2) ->
  match f_loop s1, f_loop s2 with
  | Some (s1', l1), Some (s2', l2) => l1 = l2 /\ f_rt s1' = f_rt s2' /\ forall a, In a (loop_next s1) -> same (at_ a) s1' s2'
  | None, None => True
  | _, _ => False
  end.
Proof.
  intros Er U1 U2 Hs. unfold loop_next in *. unfold f_loop. rewrite <- Er.
  destruct (f_used s1) as [u|] eqn:E1; [|now destruct U1]. destruct (f_used s2) as [u2|] eqn:E2; [|now destruct U2]. clear U1 U2.
  destruct (f_rt s1) as [|b c|k mid c e|k c e|c e|k c e|md k c e|k c e]; try exact I.
  - assert (H0 := Hs (rd Used) ltac:(cbn; auto)). cbn in H0. rewrite E1, E2 in H0. injection H0 as <-.
    assert (H1 := Hs (rd (Lst u)) ltac:(cbn; auto)). cbn [same at_ rd] in H1. rewrite <- H1.
    destruct (nth_error (f_list s1 u) k) as [sp|] eqn:En.
    + assert (H2 := Hs (wr (StateOf (sp_inst sp))) ltac:(cbn; auto)). cbn in H2. destruct mid.
      * destruct (like_start (c_t c) (sp_inst sp) _ _ H2) as [L1 L2]. destruct (start_request (c_t c) (cm_heap (f_m s1)) _) as [h1 e1], (start_request (c_t c) (cm_heap (f_m s2)) _) as [h2 e2].
        cbn in L1, L2. subst e2. split; [reflexivity|]. split; [reflexivity|]. intros a [<-|[<-|[<-|[]]]]; cbn; try assumption; congruence.
      * rewrite <- (running_at _ _ _ H2). destruct (is_running _ _); [|split; [reflexivity|]; split; [reflexivity|]; intros a Ha; specialize (Hs a Ha); destruct a as [x w], x; exact Hs].
        destruct (like_stop (c_t c) (sp_inst sp) _ _ H2) as [L1 L2]. destruct (stop_request (c_t c) (cm_heap (f_m s1)) _) as [h1 e1], (stop_request (c_t c) (cm_heap (f_m s2)) _) as [h2 e2].
        cbn in L1, L2. subst e2. split; [reflexivity|]. split; [reflexivity|]. intros a [<-|[<-|[<-|[]]]]; cbn; try assumption; congruence.
    + destruct mid; (split; [reflexivity|]; split; [reflexivity|]; intros a Ha; specialize (Hs a Ha); destruct a as [x w], x; exact Hs).
  - assert (H0 := Hs (rd Used) ltac:(cbn; auto)). cbn in H0. rewrite E1, E2 in H0. injection H0 as <-.
    assert (H1 := Hs (rd (Lst u)) ltac:(cbn; auto)). cbn [same at_ rd] in H1. rewrite <- H1.
    destruct (nth_error (f_list s1 u) k) as [sp|] eqn:En.
    + assert (H2 := Hs (rd (StateOf (sp_inst sp))) ltac:(cbn; auto)). cbn in H2.
      destruct (like_update (c_t c) (c_p c) (sp_inst sp) _ _ H2) as [L1 L2]. destruct (update_request (c_t c) (c_p c) (cm_heap (f_m s1)) _) as [h1 e1], (update_request (c_t c) (c_p c) (cm_heap (f_m s2)) _) as [h2 e2].
      cbn in L1, L2. subst e2. split; [reflexivity|]. split; [reflexivity|]. intros a [<-|[<-|[<-|[]]]]; cbn; try assumption; congruence.
    + assert (H2 := Hs (rd DoSwitch) ltac:(cbn; auto)). cbn in H2. rewrite <- H2.
      destruct (sw_do _); (split; [reflexivity|]; split; [reflexivity|]; intros a Ha; specialize (Hs a Ha); destruct a as [x w], x; exact Hs).
  - assert (H2 := Hs (rd Params) ltac:(cbn; auto)). assert (H3 := Hs (rd HwRequests) ltac:(cbn; auto)). cbn in H2, H3. destruct (done_started _ _ H2) as (D1 & D2 & D3 & D4). destruct H3 as [H3 H4].
    rewrite <- D1, <- H3, <- H4. destruct (sw_started _); (split; [reflexivity|]; split; [reflexivity|]); intros a [<-|[<-|[<-|[]]]]; cbn; auto.
  - assert (H1 := Hs (rd Requests) ltac:(cbn; auto)). cbn in H1. destruct H1 as [H1 H1']. rewrite <- H1'. destruct (nth_error (cm_stop (f_m s1)) k) as [i|] eqn:En.
    + assert (H2 := Hs (wr (StateOf i)) ltac:(cbn; auto)). cbn in H2.
      destruct (like_stop_body (c_t c) i _ _ H2) as [L1 L2]. destruct (stop_body (c_t c) (cm_heap (f_m s1)) i) as [h1 e1], (stop_body (c_t c) (cm_heap (f_m s2)) i) as [h2 e2].
      cbn in L1, L2. subst e2. split; [reflexivity|]. split; [reflexivity|]. intros a [<-|[<-|[]]]; cbn; auto.
    + assert (H2 := Hs (rd Params) ltac:(cbn; auto)). cbn in H2. destruct (done_started _ _ H2) as (D1 & D2 & D3 & D4). rewrite <- D2, <- D3.
      split; [reflexivity|]. split; [reflexivity|]. intros a [<-|[<-|[]]]; cbn; auto.
  - assert (H1 := Hs (rd Requests) ltac:(cbn; auto)). cbn in H1. destruct H1 as [H1 H1']. assert (H3 := Hs (rd Params) ltac:(cbn; auto)). cbn in H3. rewrite <- H1. destruct (nth_error (cm_start (f_m s1)) k) as [i|] eqn:En.
    + assert (H2 := Hs (wr (StateOf i)) ltac:(cbn; auto)). cbn in H2.
      destruct (like_mode md (c_t c) i _ _ H2) as [L1 L2]. destruct (mode_request md (c_t c) (cm_heap (f_m s1)) i) as [h1 e1], (mode_request md (c_t c) (cm_heap (f_m s2)) i) as [h2 e2].
      cbn in L1, L2. subst e2. split; [reflexivity|]. split; [reflexivity|]. intros a [<-|[<-|[<-|[]]]]; cbn; auto.
    + assert (H4 := Hs (wr DoSwitch) ltac:(cbn; auto)). cbn in H4.
      split; [reflexivity|]. split; [reflexivity|]. intros a [<-|[<-|[<-|[]]]]; destruct md; cbn; auto; destruct (cm_sw (f_m s1)), (cm_sw (f_m s2)); exact H3.
  - assert (H1 := Hs (rd Requests) ltac:(cbn; auto)). cbn in H1. destruct H1 as [H1 H1']. assert (H3 := Hs (rd Params) ltac:(cbn; auto)). cbn in H3.
    assert (H5 := Hs (rd Cur) ltac:(cbn; auto)). cbn in H5. assert (H6 := Hs (rd (Lst (f_cur s1))) ltac:(cbn; auto)). cbn [same at_ rd] in H6. rewrite <- H1.
    destruct (nth_error (cm_start (f_m s1)) k) as [i|] eqn:En.
    + assert (H2 := Hs (wr (StateOf i)) ltac:(cbn; auto 10)). cbn in H2. rewrite <- (running_at _ _ _ H2).
      destruct (is_running _ _); [split; [reflexivity|]; split; [reflexivity|]; intros a Ha; specialize (Hs a Ha); destruct a as [x w], x; exact Hs|].
      rewrite <- H5, <- H6.
      destruct (like_asap (c_t c) (c_hw c) (cm_sw (f_m s1)) (cm_sw (f_m s2)) k i (f_list s1 (f_cur s1)) H3 _ _ H2) as [L1 L2].
      destruct (for_each _ (cm_heap (f_m s1)) _) as [h1 e1], (for_each _ (cm_heap (f_m s2)) _) as [h2 e2].
      cbn in L1, L2. subst e2. split; [reflexivity|]. split; [reflexivity|]. intros a [<-|[<-|[<-|[<-|[<-|[]]]]]]; cbn; auto.
    + assert (H4 := Hs (wr DoSwitch) ltac:(cbn; auto 10)). cbn in H4.
      assert (Ef : forallb (fun i => is_running (cm_heap (f_m s1)) i || is_aborted (cm_heap (f_m s1)) i) (cm_start (f_m s1)) =
                   forallb (fun i => is_running (cm_heap (f_m s2)) i || is_aborted (cm_heap (f_m s2)) i) (cm_start (f_m s1))).
      { assert (Hst : forall i, In i (cm_start (f_m s1)) -> cm_heap (f_m s1) i = cm_heap (f_m s2) i).
        { intros i Hi. apply (Hs (rd (StateOf i))). cbn. do 5 right. change (rd (StateOf i)) with ((fun i => rd (StateOf i)) i). now apply in_map. }
        revert Hst. generalize (cm_start (f_m s1)). clear. intros l. induction l as [|i l IH]; intros Hst; cbn; [reflexivity|].
        f_equal; [|apply IH; intros j Hj; apply Hst; now right]. unfold is_running, is_aborted. now rewrite (Hst i (or_introl eq_refl)). }
      rewrite <- Ef. split; [destruct (forallb _ _); reflexivity|]. split; [destruct (forallb _ _); reflexivity|]. intros a Ha. specialize (Hs a Ha).
      destruct (forallb _ _), a as [x w], x; try exact Hs; cbn in *; destruct (cm_sw (f_m s1)), (cm_sw (f_m s2)); auto.
Qed.

Lemma defined_app a b : defined (a ++ b) = defined a ++ defined b.
Proof. apply filter_app. Qed.
Lemma defined_mark (b : bool) : defined (if b then [Undef] else []) = [].
Proof. destruct b; reflexivity. Qed.

Lemma scan_agree strict h h' sr pr l : (forall c, In c l -> h (sp_inst c) = h' (sp_inst c)) -> forall i s p, scan strict h sr pr l i s p = scan strict h' sr pr l i s p.
Proof.
  induction l as [|c l IH]; intros E i s p; cbn [scan]; [reflexivity|]. cbv zeta. rewrite (running_at _ _ _ (E c (or_introl eq_refl))).
  repeat match goal with |- context [if ?b then ScanRefused _ _ else _] => destruct b; [reflexivity|] end. apply IH. intros d Hd. apply E. now right.
Qed.

Definition agreeing (s1 s2 : fst_) : Prop :=
  f_nrt s1 = f_nrt s2 /\ cm_next (f_m s1) = cm_next (f_m s2) /\ forall x, lock_only x = true -> same x s1 s2.

Lemma agreeing_write s1 s2 b l p u : agreeing s1 s2 -> forall t1 t2, t1 = f_set_nrt (fst (f_write s1 b l)) p -> t2 = f_set_nrt (fst (f_write s2 b l)) p ->
  agreeing t1 t2 /\ (same u s1 s2 -> same u t1 t2).
Proof.
  intros (A1 & A2 & A3) t1 t2 -> ->. assert (L : forall b', f_list (f_set_list s1 b l) b' = f_list (f_set_list s2 b l) b').
  { intros b'. assert (X := A3 (Lst b') eq_refl). destruct s1, s2, b, b'; cbn in *; auto. }
  split.
  - split; [reflexivity|]. split; [exact A2|]. intros x Hx. destruct x; try discriminate Hx; try exact (A3 _ Hx). exact (L b0).
  - intros Hu. destruct u; try exact Hu. exact (L b0).
Qed.
Lemma agreeing_destroyed s1 s2 b : agreeing s1 s2 -> f_destroyed s1 b = f_destroyed s2 b.
Proof.
  intros (_ & _ & A). unfold f_destroyed. assert (X := A (Lst b) eq_refl). assert (Y := A (Lst (negb b)) eq_refl). cbn [same] in X, Y. now rewrite X, Y.
Qed.
Lemma agreeing_nrt s1 s2 p u : agreeing s1 s2 -> agreeing (f_set_nrt s1 p) (f_set_nrt s2 p) /\ (same u s1 s2 -> same u (f_set_nrt s1 p) (f_set_nrt s2 p)).
Proof.
  intros (A1 & A2 & A3). split.
  - split; [reflexivity|]. split; [exact A2|]. intros x Hx. destruct x; try discriminate Hx; exact (A3 _ Hx).
  - destruct u; auto.
Qed.
Lemma agreeing_refuse s1 s2 e u : agreeing s1 s2 ->
  defined (snd (f_refuse s1 e)) = defined (snd (f_refuse s2 e)) /\ agreeing (fst (f_refuse s1 e)) (fst (f_refuse s2 e)) /\ (same u s1 s2 -> same u (fst (f_refuse s1 e)) (fst (f_refuse s2 e))).
Proof.
  intros A. assert (Ec : f_cur s1 = f_cur s2) by exact (proj2 (proj2 A) Cur eq_refl). unfold f_refuse. rewrite <- Ec, (agreeing_destroyed s1 s2 _ A).
  unfold f_write. cbn [fst snd]. rewrite !defined_app, !defined_mark. split; [reflexivity|]. eapply agreeing_write; [exact A|reflexivity|reflexivity].
Qed.

(** Result of a step of the lock holder in two states that agree where it looks. *)
Definition same_step (s1 s2 : fst_) (r1 r2 : option (fst_ * list label)) : Prop :=
  match r1, r2 with
  | Some (s1', l1), Some (s2', l2) => defined l1 = defined l2 /\ agreeing s1' s2' /\ forall a, In a (lock_next s1) -> same (at_ a) s1' s2'
  | None, None => True
  | _, _ => False
  end.

Lemma step_local s1 s2 : agreeing s1 s2 -> (forall a, In a (lock_next s1) -> same (at_ a) s1 s2) -> same_step s1 s2 (f_step s1) (f_step s2).
Proof.
  intros A Hs. assert (A' := A). destruct A' as (A1 & A2 & A3).
  assert (Ec : f_cur s1 = f_cur s2) by exact (A3 Cur eq_refl). assert (El : forall b, f_list s1 b = f_list s2 b) by (intros b; exact (A3 (Lst b) eq_refl)).
  assert (Eo : cm_loaders (f_m s1) = cm_loaders (f_m s2)) by exact (A3 Loaders eq_refl).
  assert (RF : forall e, same_step s1 s2 (Some (f_refuse s1 e)) (Some (f_refuse s2 e))).
  { intros e. unfold same_step. assert (X := fun u => agreeing_refuse s1 s2 e u A). destruct (f_refuse s1 e) as [t1 l1], (f_refuse s2 e) as [t2 l2]. cbn [fst snd] in X.
    split; [apply (X Cur)|]. split; [apply (X Cur)|]. intros a Ha. apply (X (at_ a)). now apply Hs. }
  assert (ST : forall p l, same_step s1 s2 (Some (f_set_nrt s1 p, l)) (Some (f_set_nrt s2 p, l))).
  { intros p l. split; [reflexivity|]. split; [apply (agreeing_nrt _ _ p Cur A)|]. intros a Ha. apply agreeing_nrt; auto. }
  assert (WR : forall b l p q, same_step s1 s2 (let (s, u) := f_write s1 b l in Some (f_set_nrt s p, u ++ q)) (let (s, u) := f_write s2 b l in Some (f_set_nrt s p, u ++ q))).
  { intros b l p q. unfold f_write, same_step. rewrite !defined_app, !defined_mark. split; [reflexivity|].
    assert (X := fun u => agreeing_write s1 s2 b l p u A _ _ eq_refl eq_refl). split; [apply (X Cur)|]. intros a Ha. apply (X (at_ a)). now apply Hs. }
  assert (WR0 : forall b l p, same_step s1 s2 (let (s, u) := f_write s1 b l in Some (f_set_nrt s p, u)) (let (s, u) := f_write s2 b l in Some (f_set_nrt s p, u))).
  { intros b l p. assert (X := WR b l p []). unfold f_write in *. now rewrite !app_nil_r in X. }
  assert (RF2 : forall e m1 m2, cm_next m1 = cm_next m2 -> cm_heap m1 = cm_heap (f_m s1) -> cm_heap m2 = cm_heap (f_m s2) -> cm_sw m1 = cm_sw (f_m s1) -> cm_sw m2 = cm_sw (f_m s2) ->
      cm_start m1 = cm_start (f_m s1) -> cm_start m2 = cm_start (f_m s2) -> cm_stop m1 = cm_stop (f_m s1) -> cm_stop m2 = cm_stop (f_m s2) ->
      cm_hwstart m1 = cm_hwstart (f_m s1) -> cm_hwstart m2 = cm_hwstart (f_m s2) -> cm_hwstop m1 = cm_hwstop (f_m s1) -> cm_hwstop m2 = cm_hwstop (f_m s2) ->
      cm_loaders m1 = cm_loaders (f_m s1) -> cm_loaders m2 = cm_loaders (f_m s2) ->
      same_step s1 s2 (Some (f_refuse (f_set_m s1 m1) e)) (Some (f_refuse (f_set_m s2 m2) e))).
  { intros e m1 m2 M0 M1 M2 M3 M4 M5 M6 M7 M8 M9 M10 M11 M12 M13 M14.
    assert (SA : forall x, same x s1 s2 -> same x (f_set_m s1 m1) (f_set_m s2 m2)).
    { intros x Hx. destruct x; cbn in *; try exact Hx; rewrite ?M1, ?M2, ?M3, ?M4, ?M5, ?M6, ?M7, ?M8, ?M9, ?M10, ?M11, ?M12, ?M13, ?M14; exact Hx. }
    assert (AA : agreeing (f_set_m s1 m1) (f_set_m s2 m2)) by (split; [exact A1|]; split; [exact M0|]; intros x Hx; apply SA, A3, Hx).
    unfold same_step. assert (X := fun u => agreeing_refuse _ _ e u AA). destruct (f_refuse (f_set_m s1 m1) e) as [t1 l1], (f_refuse (f_set_m s2 m2) e) as [t2 l2]. cbn [fst snd] in X.
    split; [apply (X Cur)|]. split; [apply (X Cur)|]. intros a Ha. apply (X (at_ a)), SA. now apply Hs. }
  unfold f_step. rewrite <- A1. destruct (f_nrt s1) as [|q|q|q k r e|n env e|sp e|p e|f e|f e|k acc| |q|sw tmo e|tmo e] eqn:P; try exact I.
  - rewrite <- Ec, <- (agreeing_destroyed s1 s2 _ A). apply WR0.
  - rewrite <- Ec, <- !El. destruct (nth_error (f_list s1 (f_cur s1)) k) as [sp|] eqn:En, q; try exact I.
    + apply WR0.
    + destruct (String.eqb _ _); [|apply WR0]. assert (H := Hs (rd (StateOf (sp_inst sp)))). unfold lock_next in H. rewrite P, En in H. specialize (H ltac:(cbn; auto)). cbn in H.
      rewrite <- (running_at _ _ _ H). destruct (is_running _ _); [apply RF|apply ST].
    + apply ST.
    + destruct r; [apply ST|apply RF].
  - rewrite <- Ec, <- El, <- Eo. destruct (existsb _ _); [apply RF|]. destruct (negb (le_nh_ok env)); [apply ST|]. destruct (le_type env); [|apply RF].
    destruct (construct _ _ _) as [[] ec]; [|apply RF]. rewrite <- A2. destruct (le_init env) eqn:Ei; [apply ST| |].
    all: apply RF2; try reflexivity; exact Eo.
  - rewrite <- Ec, <- !El. apply WR0.
  - rewrite <- Ec. destruct p as [sp|]; (split; [reflexivity|]; split; [split; [reflexivity|]; split; [first [reflexivity|exact A2]|]; intros x Hx; destruct x; try discriminate Hx; try exact (A3 _ Hx); reflexivity|]);
      (intros a Ha; unfold lock_next in Ha; rewrite P in Ha; destruct Ha as [<-|[<-|[]]]; reflexivity).
  - rewrite <- (agreeing_destroyed s1 s2 _ A). apply WR.
  - rewrite <- Ec, <- !El. destruct (nth_error (f_list s1 (f_cur s1)) k) as [sp|] eqn:En; [|apply ST].
    assert (H := Hs (rd (StateOf (sp_inst sp)))). unfold lock_next in H. rewrite P, En in H. specialize (H ltac:(cbn; auto)). cbn in H.
    replace (state_string (cm_heap (f_m s2)) (sp_inst sp)) with (state_string (cm_heap (f_m s1)) (sp_inst sp)); [apply ST|].
    unfold state_string, is_initialized, is_running, is_stopped, is_waiting, is_aborted. now rewrite H.
  - replace (list_types (f_m s2)) with (list_types (f_m s1)); [apply ST|]. unfold list_types. now rewrite Eo.
  - destruct q; try exact I. assert (Eq : f_list s1 (f_cur s1) = f_list s2 (f_cur s2)) by (rewrite <- Ec; apply El). rewrite <- Eq. clear Eq.
    assert (B0 := A3 Requests eq_refl). assert (B1 := A3 HwRequests eq_refl). cbn in B0, B1. destruct B0 as [B2 B3], B1 as [B4 B5].
    assert (Hh : forall c, In c (f_list s1 (f_cur s1)) -> cm_heap (f_m s1) (sp_inst c) = cm_heap (f_m s2) (sp_inst c)).
    { intros c Hc. apply (Hs (rd (StateOf (sp_inst c)))). unfold lock_next. rewrite P. do 6 right. change (rd (StateOf (sp_inst c))) with ((fun sp => rd (StateOf (sp_inst sp))) c). now apply in_map. }
    unfold switch_begin. cbn [set_list cm_list cm_heap cm_start cm_stop cm_hwstart cm_hwstop]. rewrite <- B2, <- B3, <- B4, <- B5.
    assert (FIN : forall sw' st sp hs ht p l, same_step s1 s2
       (Some (f_set_nrt (f_set_m s1 (set_switch (f_m s1) sw' st sp hs ht (cm_call (f_m s1)))) p, (if f_walking s1 then [Undef] else []) ++ l))
       (Some (f_set_nrt (f_set_m s2 (set_switch (f_m s2) sw' st sp hs ht (cm_call (f_m s2)))) p, (if f_walking s2 then [Undef] else []) ++ l))).
    { intros. unfold same_step. rewrite !defined_app, !defined_mark. split; [reflexivity|]. split; [split; [reflexivity|]; split; [exact A2|]; intros x Hx; destruct x; try discriminate Hx; try exact (A3 _ Hx); split; reflexivity|].
      intros a Ha. specialize (Hs a Ha). destruct a as [x w], x; try exact Hs; cbn; auto. }
    assert (FIN0 : forall sw' st sp hs ht p, same_step s1 s2
       (Some (f_set_nrt (f_set_m s1 (set_switch (f_m s1) sw' st sp hs ht (cm_call (f_m s1)))) p, (if f_walking s1 then [Undef] else [])))
       (Some (f_set_nrt (f_set_m s2 (set_switch (f_m s2) sw' st sp hs ht (cm_call (f_m s2)))) p, (if f_walking s2 then [Undef] else [])))).
    { intros. assert (X := FIN sw' st sp hs ht p []). now rewrite !app_nil_r in X. }
    destruct (collect _ _ _ (cm_stop (f_m s1))); [|apply FIN]. destruct (collect _ _ _ (cm_start (f_m s1))); [|apply FIN].
    rewrite <- (scan_agree _ _ _ _ _ _ Hh). destruct (scan _ _ _ _ _ _ _ _); [apply FIN|]. destruct (check infos); [apply FIN|]. destruct (negb _); [apply FIN|apply FIN0].
  - split; [reflexivity|]. split; [split; [reflexivity|]; split; [exact A2|]; intros x Hx; destruct x; try discriminate Hx; exact (A3 _ Hx)|].
    intros a Ha. unfold lock_next in Ha. rewrite P in Ha. destruct Ha as [<-|[<-|[]]]; reflexivity.
Qed.

Lemma poll_local w s1 s2 : agreeing s1 s2 -> (forall a, In a (lock_next s1) -> same (at_ a) s1 s2) -> gives_up (f_nrt s1) w = false ->
  same_step s1 s2 (f_poll w true true s1) (f_poll w true true s2).
Proof.
  intros A Hs G. assert (A' := A). destruct A' as (A1 & A2 & A3). assert (Ec : f_cur s1 = f_cur s2) by exact (A3 Cur eq_refl).
  assert (ST : forall p l, same_step s1 s2 (Some (f_set_nrt s1 p, l)) (Some (f_set_nrt s2 p, l))).
  { intros p l. split; [reflexivity|]. split; [apply (agreeing_nrt _ _ p Cur A)|]. intros a Ha. apply agreeing_nrt; auto. }
  assert (SS : same_step s1 s2 (Some (s1, [])) (Some (s2, []))) by (split; [reflexivity|]; split; [exact A|exact Hs]).
  unfold f_poll. rewrite <- A1. cbn [andb negb]. destruct (f_nrt s1) as [|q| | | | | |f e| | | | | |tmo e] eqn:P; try exact I.
  - assert (H := Hs (rd Used)). unfold lock_next in H. rewrite P in H. specialize (H ltac:(cbn; auto)). cbn in H. rewrite <- H, <- Ec. destruct (match f_used s1 with Some _ => _ | None => _ end); [apply SS|apply ST].
  - assert (H := Hs (rd Used)). unfold lock_next in H. rewrite P in H. specialize (H ltac:(cbn; auto)). cbn in H. rewrite <- H. destruct (match f_used s1 with Some _ => _ | None => _ end); [apply SS|apply ST].
  - cbn [gives_up] in G. apply Bool.negb_false_iff in G. rewrite G.
    assert (H := Hs (rd DoSwitch)). unfold lock_next in H. rewrite P in H. specialize (H ltac:(cbn; auto)). cbn in H. rewrite <- H. destruct (sw_do (cm_sw (f_m s1))) eqn:Hd; [apply SS|].
    unfold same_step. rewrite !defined_app, !defined_mark. split; [reflexivity|]. split; [split; [reflexivity|]; split; [exact A2|]; intros x Hx; destruct x; try discriminate Hx; try exact (A3 _ Hx); split; reflexivity|].
    intros a Ha. unfold lock_next in Ha. rewrite P, Hd in Ha. destruct Ha as [<-|[<-|[]]]; cbn; [congruence|auto].
Qed.
