(** The lists the control loop uses stay put while it uses them, and how far a cycle has come. *)
From Verif Require Import HwTypes Lifecycle CMModel CMSpec CMInv CMCycle CMLife FineModel FineSpec FineAccess FineBase FineRel FineLoop FineManage FineLock FineSwitch FineMain FineFrame.

Lemma in_switch_nrt s o : R s o -> managing (f_rt s) = true -> exists tmo e, f_nrt s = NSwitch tmo e /\ sw_do (cm_sw (f_m s)) = true.
Proof.
  intros HR Q. assert (W := r_sw _ _ HR). unfold sw_rel in W.
  assert (Hd : sw_do (cm_sw (f_m s)) = true).
  { destruct (get_loop _ _ HR Q) as (c & _ & _ & _ & Hd & Km & _). unfold man_rel in Km. destruct (f_rt s); try contradiction; destruct Km as (-> & _); exact Hd. }
  destruct (f_nrt s); try (destruct W as (W & _); rewrite W in Q; discriminate Q). eauto.
Qed.

Lemma list_untouched s o b : R s o -> f_used s = Some b -> in_update (f_rt s) = true -> ~ In (wr (Lst b)) (lock_next s).
Proof.
  intros HR Hu Hi Hb. assert (B := r_bufs _ _ HR). destruct B as (B1 & B2 & _). unfold lock_next in Hb.
  destruct (f_nrt s) as [| |?|[] ? ? ?| | | | |f ?| | | | |] eqn:P; cbn in Hb;
    try (destruct (nth_error _ _); cbn in Hb); try (destruct (sw_do _); cbn in Hb);
    try (apply in_map_iff in Hb);
    repeat match type of Hb with _ \/ _ => destruct Hb as [Hb|Hb] | False => destruct Hb | (_ = wr _) => try discriminate Hb; try (injection Hb as Hb) end;
    try (subst; destruct B2 as (B2 & _); rewrite Hu in B2; destruct B2 as [B2|B2]; [discriminate B2|injection B2 as B2; destruct (f_cur s); discriminate B2]).
  - destruct B2 as (B2 & _ & E). subst. rewrite Hu in B2. destruct B2 as [B2|B2]; [discriminate B2|injection B2 as B2; destruct (f_cur s); discriminate B2].
  - repeat (destruct Hb as [Hb|Hb]; [discriminate Hb|]). apply in_map_iff in Hb as (sp & Hb & _). discriminate Hb.
Qed.

Lemma requests_untouched s o : R s o -> managing (f_rt s) = true -> ~ In (wr Requests) (lock_next s).
Proof.
  intros HR Q H. destruct (in_switch_nrt _ _ HR Q) as (tmo & e & P & Hd). unfold lock_next in H. rewrite P, Hd in H. cbn in H. destruct H as [H|[]]. discriminate H.
Qed.

(** How many accesses the control loop has made in this cycle, at most, and the bounds of its loop counters. *)
Definition in_use (s : fst_) : nat := match f_used s with Some u => List.length (f_list s u) | None => 0 end.
Definition progress (s : fst_) (n : nat) : Prop :=
  let N := in_use s in
  match f_rt s with
  | RtIdle => True
  | RtLoaded _ _ => n = 0%nat
  | RtReset k mid _ _ => (n <= 2 * k + (if mid then 1 else 0) /\ k + (if mid then 1 else 0) <= N)%nat
  | RtUpdate k _ _ => (n <= 2 * N + 1 + k /\ k <= N)%nat
  | RtDo _ _ => (n <= 3 * N + 2)%nat
  | RtStop k _ _ => (n <= 3 * N + 3 + k /\ k <= List.length (cm_stop (f_m s)))%nat
  | RtStart _ k _ _ | RtAsap k _ _ => (n <= 3 * N + 4 + List.length (cm_stop (f_m s)) + k /\ k <= List.length (cm_start (f_m s)))%nat
  end.

Lemma progress_frame s s' n : f_rt s' = f_rt s -> f_used s' = f_used s ->
  (in_update (f_rt s) = true -> in_use s' = in_use s) -> (managing (f_rt s) = true -> same Requests s' s) -> progress s n -> progress s' n.
Proof.
  intros E1 E2 E3 E4 P. unfold progress in *. rewrite E1. destruct (f_rt s); cbn in E3, E4; auto; specialize (E3 eq_refl); rewrite ?E3; auto;
    specialize (E4 eq_refl) as [E4 E5]; rewrite ?E4, ?E5; auto.
Qed.

Lemma used_frame s a s' l : by_loop a = false -> fine_step s a = Some (s', l) -> f_used s' = f_used s.
Proof.
  intros Ha E. destruct a as [| | |q|w ok1 ok2| |x]; try discriminate Ha; cbn [fine_step] in E.
  - destruct (f_nrt s); try discriminate E. destruct (f_entry q); [|discriminate E]. now injection E as <- <-.
  - unfold f_poll in E. destruct (f_nrt s); try discriminate E; repeat match type of E with context [if ?b then _ else _] => destruct b end; now injection E as <- <-.
  - assert (RF : forall t e t' l', f_refuse t e = (t', l') -> f_used t' = f_used t) by (unfold f_refuse, f_write; intros t e t' l' X; now injection X as <- <-).
    unfold f_step in E. destruct (f_nrt s) as [|q|q|q k r e|n env e|sp e|p e|f e|f e|k acc| |q|sw tmo e|tmo e]; try discriminate E;
      repeat match type of E with
      | context [match nth_error ?a ?b with _ => _ end] => destruct (nth_error a b)
      | context [match ?q with Load _ _ => _ | _ => _ end] => destruct q
      | context [if ?b then _ else _] => destruct b
      | context [match le_type ?e with _ => _ end] => destruct (le_type e)
      | context [match le_init ?e with _ => _ end] => destruct (le_init e)
      | context [let (_, _) := construct ?a ?b ?c in _] => destruct (construct a b c)
      | context [match ?p with Some _ => _ | None => _ end] => destruct p
      | context [let (_, _) := f_write ?a ?b ?c in _] => unfold f_write in E
      | context [switch_begin ?a ?b ?c ?d ?e ?f ?g ?h ?i ?j] => destruct (switch_begin a b c d e f g h i j) as [[] ok]; destruct ok
      end; try discriminate E; try (injection E as E; now rewrite (RF _ _ _ _ E)); now injection E as <- <-.
  - now injection E as <- <-.
Qed.

Lemma rt_frame s a s' l : by_loop a = false -> fine_step s a = Some (s', l) -> f_rt s' = f_rt s.
Proof.
  intros Ha E. destruct a as [| | |q|w ok1 ok2| |x]; try discriminate Ha; cbn [fine_step] in E.
  - destruct (f_nrt s); try discriminate E. destruct (f_entry q); [|discriminate E]. now injection E as <- <-.
  - unfold f_poll in E. destruct (f_nrt s); try discriminate E; repeat match type of E with context [if ?b then _ else _] => destruct b end; now injection E as <- <-.
  - assert (RF : forall t e t' l', f_refuse t e = (t', l') -> f_rt t' = f_rt t) by (unfold f_refuse, f_write; intros t e t' l' X; now injection X as <- <-).
    unfold f_step in E. destruct (f_nrt s) as [|q|q|q k r e|n env e|sp e|p e|f e|f e|k acc| |q|sw tmo e|tmo e]; try discriminate E;
      repeat match type of E with
      | context [match nth_error ?a ?b with _ => _ end] => destruct (nth_error a b)
      | context [match ?q with Load _ _ => _ | _ => _ end] => destruct q
      | context [if ?b then _ else _] => destruct b
      | context [match le_type ?e with _ => _ end] => destruct (le_type e)
      | context [match le_init ?e with _ => _ end] => destruct (le_init e)
      | context [let (_, _) := construct ?a ?b ?c in _] => destruct (construct a b c)
      | context [match ?p with Some _ => _ | None => _ end] => destruct p
      | context [let (_, _) := f_write ?a ?b ?c in _] => unfold f_write in E
      | context [switch_begin ?a ?b ?c ?d ?e ?f ?g ?h ?i ?j] => destruct (switch_begin a b c d e f g h i j) as [[] ok]; destruct ok
      end; try discriminate E; try (injection E as E; now rewrite (RF _ _ _ _ E)); now injection E as <- <-.
  - now injection E as <- <-.
Qed.

(** A step of anyone else leaves the cycle where it is. *)
Lemma progress_other s o a s' l n : R s o -> by_loop a = false -> ros_up s a = true -> in_time s a = true ->
  fine_step s a = Some (s', l) -> progress s n -> progress s' n.
Proof.
  intros HR Ha U T E. assert (Er := rt_frame _ _ _ _ Ha E). assert (Eu := used_frame _ _ _ _ Ha E).
  destruct (by_lock a) eqn:Hb.
  - apply progress_frame; auto.
    + intros Hi. unfold in_use. rewrite Eu. destruct (f_used s) as [u|] eqn:Hu; [|reflexivity]. f_equal.
      refine (proj2 (lock_frame _ _ _ _ (Lst u) Hb U T E (list_untouched _ _ _ HR Hu Hi) _)). discriminate.
    + intros Q. refine (proj2 (lock_frame _ _ _ _ Requests Hb U T E (requests_untouched _ _ HR Q) _)). discriminate.
  - destruct a; try discriminate Ha; try discriminate Hb. cbn [fine_step] in E. injection E as <- <-. auto.
Qed.

Lemma nth_some {A} (l : list A) k x : nth_error l k = Some x -> (S k <= List.length l)%nat.
Proof. intros H. apply nth_error_Some. congruence. Qed.

(** A step of the cycle takes it further, or ends it. *)
Lemma progress_loop s o s' l n : R s o -> f_loop s = Some (s', l) -> progress s n ->
  match f_rt s' with RtIdle => (n <= 3 * in_use s + 4 + List.length (cm_stop (f_m s)) + List.length (cm_start (f_m s)))%nat | _ => progress s' (S n) end.
Proof.
  intros HR E P. assert (HR' : in_update (f_rt s) = true -> True) by auto. unfold f_loop in E. destruct (f_used s) as [u|] eqn:Eu; [|discriminate E].
  unfold progress, in_use in *. rewrite Eu in *.
  destruct (f_rt s) as [|b c|k [|] c e|k c e|c e|k c e|md k c e|k c e] eqn:Er; try discriminate E.
  - destruct (nth_error (f_list s u) k) as [sp|] eqn:En.
    + apply nth_some in En. destruct (start_request _ _ _) as [h1 e1]. injection E as <- <-. cbn. rewrite Eu. change (f_list (f_set_rt _ _) u) with (f_list s u). lia.
    + exfalso. apply nth_error_None in En. lia.
  - destruct (nth_error (f_list s u) k) as [sp|] eqn:En.
    + apply nth_some in En. destruct (is_running _ _).
      * destruct (stop_request _ _ _) as [h1 e1]. injection E as <- <-. cbn. rewrite Eu. change (f_list (f_set_rt _ _) u) with (f_list s u). lia.
      * injection E as <- <-. cbn. rewrite Eu. change (f_list (f_set_rt _ _) u) with (f_list s u). lia.
    + injection E as <- <-. cbn. rewrite Eu. change (f_list (f_set_rt _ _) u) with (f_list s u). lia.
  - destruct (nth_error (f_list s u) k) as [sp|] eqn:En.
    + apply nth_some in En. destruct (update_request _ _ _ _) as [h1 e1]. injection E as <- <-. cbn. rewrite Eu. change (f_list (f_set_rt _ _) u) with (f_list s u). lia.
    + destruct (sw_do _); injection E as <- <-; cbn; rewrite ?Eu; try change (f_list (f_set_rt _ _) u) with (f_list s u); lia.
  - destruct (sw_started _); injection E as <- <-; cbn; rewrite Eu; change (f_list (f_set_rt _ _) u) with (f_list s u); lia.
  - destruct (nth_error (cm_stop (f_m s)) k) as [i|] eqn:En.
    + apply nth_some in En. destruct (stop_body _ _ _) as [h1 e1]. injection E as <- <-. cbn. rewrite Eu. change (f_list (f_set_rt _ _) u) with (f_list s u). lia.
    + injection E as <- <-. destruct (sw_asap _); cbn; rewrite Eu; change (f_list (f_set_rt _ _) u) with (f_list s u); lia.
  - destruct (nth_error (cm_start (f_m s)) k) as [i|] eqn:En.
    + apply nth_some in En. destruct (mode_request _ _ _ _) as [h1 e1]. injection E as <- <-. cbn. rewrite Eu. change (f_list (f_set_rt _ _) u) with (f_list s u). lia.
    + injection E as <- <-. cbn. lia.
  - destruct (nth_error (cm_start (f_m s)) k) as [i|] eqn:En.
    + apply nth_some in En. destruct (is_running _ _).
      * injection E as <- <-. cbn. rewrite Eu. change (f_list (f_set_rt _ _) u) with (f_list s u). lia.
      * destruct (for_each _ _ _) as [h1 e1]. injection E as <- <-. cbn. rewrite Eu. change (f_list (f_set_rt _ _) u) with (f_list s u). lia.
    + injection E as <- <-. cbn. lia.
Qed.

(** When the cycle ends, it returns. *)
Lemma ends_by_returning s o s' l : R s o -> f_loop s = Some (s', l) -> f_rt s' = RtIdle -> exists e, l = [LRet e].
Proof.
  intros HR E Er'. assert (B := r_bufs _ _ HR). destruct B as (_ & _ & _ & B).
  unfold f_loop in E. destruct (f_used s) as [u|] eqn:Eu; [|discriminate E].
  destruct (f_rt s) as [|b c|k [|] c e|k c e|c e|k c e|md k c e|k c e] eqn:Er; try discriminate E;
    try (destruct (B u eq_refl) as (sp & Hn & _); rewrite Hn in E; destruct (start_request _ _ _); injection E as <- <-; discriminate Er');
    repeat match type of E with
    | context [match nth_error ?a ?b with _ => _ end] => destruct (nth_error a b)
    | context [if ?b then Some _ else _] => destruct b
    | context [let (_, _) := ?p in _] => destruct p
    end; injection E as <- <-; try discriminate Er'; eauto.
  destruct (sw_asap _); discriminate Er'.
Qed.

Lemma used_kept acts : forall s s' tr, fine_run s acts = Some (s', tr) -> (in_update (f_rt s) = true -> f_used s <> None) -> in_update (f_rt s') = true -> f_used s' <> None.
Proof.
  induction acts as [|a acts IH]; intros s s' tr E H; cbn [fine_run] in E; [now injection E as <- <-|].
  destruct (fine_step s a) as [[s1 e1]|] eqn:E1; [|discriminate E]. destruct (fine_run s1 acts) as [[s2 e2]|] eqn:E2; [|discriminate E]. injection E as <- <-.
  apply (IH _ _ _ E2). intros Hi. destruct (by_loop a) eqn:Ha.
  - destruct a; try discriminate Ha; cbn [fine_step] in E1.
    + destruct (f_rt s); try discriminate E1. injection E1 as <- <-. discriminate Hi.
    + destruct (f_rt s); try discriminate E1. injection E1 as <- <-. discriminate.
    + assert (Hu : f_used s1 = f_used s).
      { unfold f_loop in E1. destruct (f_used s) as [u|] eqn:Eu; [|discriminate E1].
        destruct (f_rt s) as [|b c|k [|] c e|k c e|c e|k c e|md k c e|k c e]; try discriminate E1;
        repeat match type of E1 with
        | context [match nth_error ?a ?b with _ => _ end] => destruct (nth_error a b)
        | context [if ?b then Some _ else _] => destruct b
        | context [let (_, _) := ?p in _] => destruct p
        end; injection E1 as <- <-; try exact Eu; [destruct md|destruct (forallb _ _)]; exact Eu. }
      rewrite Hu. unfold f_loop in E1. destruct (f_used s); [discriminate|discriminate E1].
  - rewrite (used_frame _ _ _ _ Ha E1). rewrite (rt_frame _ _ _ _ Ha E1) in Hi. now apply H.
Qed.

Lemma progress_run acts : forall s o s' tr n, R s o -> calm s acts -> fine_run s acts = Some (s', tr) -> in_cycle s = true -> progress s n ->
  (forall e, ~ In (LRet e) tr) -> in_cycle s' = true /\ progress s' (n + loop_steps acts).
Proof.
  induction acts as [|a acts IH]; intros s o s' tr n HR C E Hc P Hn; unfold calm in C; cbn [throughout fine_run] in C, E.
  - injection E as <- <-. split; [exact Hc|]. unfold loop_steps. cbn. now rewrite Nat.add_0_r.
  - destruct C as (U & T & C & K). apply andb_prop in U as [U1 U2]. apply andb_prop in T as [T1 T2]. apply andb_prop in C as [C1 C2]. apply andb_prop in K as [K1 K2].
    destruct (fine_step s a) as [[s1 e1]|] eqn:E1; [|discriminate E].
    destruct (fine_run s1 acts) as [[s2 e2]|] eqn:E2; [|discriminate E]. injection E as <- <-.
    destruct (simulation _ _ _ _ _ HR U1 T1 C1 K1 E1) as (o1 & _ & R1).
    assert (Hn2 : forall e, ~ In (LRet e) e2) by (intros e H; apply (Hn e), in_or_app; now right).
    specialize (IH s1 o1 s2 e2). specialize (fun m => IH m R1 (conj U2 (conj T2 (conj C2 K2))) E2).
    destruct (by_loop a) eqn:Ha.
    + destruct a; try discriminate Ha; cbn [fine_step] in E1.
      * exfalso. unfold in_cycle in Hc. destruct (f_rt s); try discriminate E1. discriminate Hc.
      * destruct (f_rt s) as [|b c| | | | | |] eqn:Er; try discriminate E1. unfold progress in P. rewrite Er in P. subst n. injection E1 as <- <-.
        apply (IH 0%nat); [destruct (c_reset c); reflexivity| |exact Hn2]. unfold progress. cbn. destruct (c_reset c); lia.
      * assert (Q := progress_loop _ _ _ _ _ HR E1 P). assert (X := ends_by_returning _ _ _ _ HR E1).
        replace (n + loop_steps (FLoop :: acts))%nat with (S n + loop_steps acts)%nat by (unfold loop_steps; cbn; lia).
        apply IH; [| |exact Hn2].
        -- unfold in_cycle. destruct (f_rt s1) eqn:Er; auto. destruct (X eq_refl) as (e & ->). exfalso. apply (Hn e). now left.
        -- destruct (f_rt s1) eqn:Er; auto. destruct (X eq_refl) as (e & ->). exfalso. apply (Hn e). now left.
    + replace (loop_steps (a :: acts)) with (loop_steps acts) by (destruct a; reflexivity || discriminate Ha).
      apply IH; [|exact (progress_other _ _ _ _ _ _ HR Ha U1 T1 E1 P)|exact Hn2]. unfold in_cycle in *. now rewrite (rt_frame _ _ _ _ Ha E1).
Qed.

(** At most so many accesses in one cycle. *)
Definition bound (s : fst_) : nat := (3 * in_use s + 4 + List.length (cm_stop (f_m s)) + List.length (cm_start (f_m s)))%nat.
Lemma progress_bound s n : in_cycle s = true -> progress s n -> (n <= bound s)%nat.
Proof. unfold in_cycle, progress, bound. destruct (f_rt s); intros Hc P; try discriminate Hc; lia. Qed.

Lemma bound_loop s s' l : f_loop s = Some (s', l) -> bound s' = bound s.
Proof.
  intros E. unfold f_loop in E. destruct (f_used s) as [u|] eqn:Eu; [|discriminate E].
  destruct (f_rt s) as [|b c|k [|] c e|k c e|c e|k c e|md k c e|k c e]; try discriminate E;
    repeat match type of E with
    | context [match nth_error ?a ?b with _ => _ end] => destruct (nth_error a b)
    | context [if ?b then Some _ else _] => destruct b
    | context [let (_, _) := ?p in _] => destruct p
    end; injection E as <- <-; unfold bound, in_use; cbn; rewrite Eu; try reflexivity; [destruct md|destruct (forallb _ _)]; cbn; rewrite Eu; reflexivity.
Qed.

Lemma loop_possible s : in_update (f_rt s) = true -> f_used s <> None -> exists s' l, f_loop s = Some (s', l).
Proof.
  intros Hi Hu. unfold f_loop. destruct (f_used s) as [u|]; [|congruence].
  destruct (f_rt s) as [|b c|k [|] c e|k c e|c e|k c e|md k c e|k c e]; try discriminate Hi;
    repeat match goal with
    | |- context [match nth_error ?a ?b with _ => _ end] => destruct (nth_error a b)
    | |- context [if ?b then Some _ else _] => destruct b
    | |- context [let (_, _) := ?p in _] => destruct p
    end; eauto.
Qed.

Lemma in_update_cycle s : in_update (f_rt s) = true -> in_cycle s = true.
Proof. unfold in_cycle. destruct (f_rt s); auto. Qed.

Lemma loop_stays s s' l : f_loop s = Some (s', l) -> f_rt s' = RtIdle \/ in_update (f_rt s') = true /\ l = [].
Proof.
  intros E. unfold f_loop in E. destruct (f_used s) as [u|] eqn:Eu; [|discriminate E].
  destruct (f_rt s) as [|b c|k [|] c e|k c e|c e|k c e|md k c e|k c e]; try discriminate E;
    repeat match type of E with
    | context [match nth_error ?a ?b with _ => _ end] => destruct (nth_error a b)
    | context [if ?b then Some _ else _] => destruct b
    | context [let (_, _) := ?p in _] => destruct p
    end; injection E as <- <-; auto. destruct (sw_asap _); auto.
Qed.

Lemma alone d : forall s o n, R s o -> in_update (f_rt s) = true -> progress s n -> (bound s - n < d)%nat ->
  exists k s' e, (k + n <= S (bound s))%nat /\ fine_run s (repeat FLoop k) = Some (s', [LRet e]).
Proof.
  induction d as [|d IH]; intros s o n HR Hi P Hd; [lia|].
  destruct (loop_possible s Hi (proj1 (r_bufs _ _ HR) Hi)) as (s1 & l1 & E).
  assert (Hb := progress_bound _ _ (in_update_cycle _ Hi) P). assert (Q := progress_loop _ _ _ _ _ HR E P).
  destruct (loop_stays _ _ _ E) as [Hr|[Hr ->]].
  - destruct (ends_by_returning _ _ _ _ HR E Hr) as (e & ->). exists 1%nat, s1, e. split; [lia|]. cbn. now rewrite E.
  - destruct (simulation _ _ FLoop _ _ HR eq_refl eq_refl eq_refl eq_refl E) as (o1 & _ & R1).
    assert (P1 : progress s1 (S n)) by (destruct (f_rt s1); auto; discriminate Hr).
    assert (Hb1 := progress_bound _ _ (in_update_cycle _ Hr) P1). rewrite (bound_loop _ _ _ E) in Hb1.
    destruct (IH s1 o1 (S n) R1 Hr P1) as (k & s2 & e & Hk & E2); [rewrite (bound_loop _ _ _ E); lia|].
    rewrite (bound_loop _ _ _ E) in Hk. exists (S k), s2, e. split; [lia|]. cbn [repeat fine_run fine_step]. now rewrite E, E2.
Qed.

Lemma progress_le s n m : progress s n -> (m <= n)%nat -> progress s m.
Proof. unfold progress. destruct (f_rt s); lia. Qed.
Lemma progress_reach acts : forall s o s' tr, R s o -> calm s acts -> fine_run s acts = Some (s', tr) -> progress s 0 -> progress s' 0.
Proof.
  induction acts as [|a acts IH]; intros s o s' tr HR C E P; unfold calm in C; cbn [throughout fine_run] in C, E; [now injection E as <- <-|].
  destruct C as (U & T & C & K). apply andb_prop in U as [U1 U2]. apply andb_prop in T as [T1 T2]. apply andb_prop in C as [C1 C2]. apply andb_prop in K as [K1 K2].
  destruct (fine_step s a) as [[s1 e1]|] eqn:E1; [|discriminate E].
  destruct (fine_run s1 acts) as [[s2 e2]|] eqn:E2; [|discriminate E]. injection E as <- <-.
  destruct (simulation _ _ _ _ _ HR U1 T1 C1 K1 E1) as (o1 & _ & R1).
  apply (IH s1 o1 s2 e2 R1 (conj U2 (conj T2 (conj C2 K2))) E2). destruct (by_loop a) eqn:Ha.
  - destruct a; try discriminate Ha; cbn [fine_step] in E1.
    + destruct (f_rt s); try discriminate E1. injection E1 as <- <-. reflexivity.
    + destruct (f_rt s) as [|b c| | | | | |] eqn:Er; try discriminate E1. injection E1 as <- <-. unfold progress. cbn. destruct (c_reset c); lia.
    + assert (Q := progress_loop _ _ _ _ _ HR E1 P). destruct (f_rt s1) eqn:Er; try (eapply progress_le; [exact Q|lia]). unfold progress. now rewrite Er.
  - exact (progress_other _ _ _ _ _ _ HR Ha U1 T1 E1 P).
Qed.
