(** Programs using the handle classes do what the abstract machine of HandleSpec does. *)
From Coq Require Import List String Bool Arith Lia.
From Verif Require Import HandleModel HandleSpec.
Import ListNotations.

Definition kind_of (x : hvar) : hkind :=
  match x with VState _ _ => HState | VCmd _ _ => HCmd | VPosVel _ => HPosVel | VPosVelAcc _ => HPosVelAcc | VPvt _ => HPvt end.
Definition ptr_of (x : hvar) (r : role) : ptr :=
  match r with
  | RPos => sh_pos (state_of x) | RVel => sh_vel (state_of x) | REff => sh_eff (state_of x)
  | RAbs => sh_abs (state_of x) | RTq => sh_tq (state_of x)
  | KCmd => match x with VCmd _ c => ch_cmd c | _ => None end
  | KPos => match posvel_of x with Some b => pv_pos b | None => None end
  | KVel => match posvel_of x with Some b => pv_vel b | None => None end
  | KAcc => match x with VPosVelAcc c => pva_acc c | _ => None end
  | KEff => match x with VPvt c => pvt_eff c | _ => None end
  | KKp => match x with VPvt c => pvt_kp c | _ => None end
  | KKd => match x with VPvt c => pvt_kd c | _ => None end
  end.

Record hrel (x : hvar) (h : ahandle) : Prop := {
  r_owner : owner_of x = a_owner h;
  r_kind : kind_of x = a_kind h;
  r_name : sh_name (state_of x) = a_name h;
  r_cells : forall r, ptr_of x r = cell (a_cells h) r }.

Section Refine.
  Context {V : Type}.
  Variable init : mem V.

  Record rel (s : pst V) (t : ast V) : Prop := {
    r_vars : Forall2 hrel (p_vars s) (s_handles t);
    r_mem : forall a, p_mem s a = content init (s_log t) a }.

  Lemma content_app log log' (m : mem V) a : content m (log ++ log') a = content (content m log) log' a.
  Proof.
    revert m. induction log as [|[b x] log IH]; intros m; simpl; auto.
  Qed.
  Lemma content_ext log : forall (m m' : mem V), (forall a, m a = m' a) -> forall a, content m log a = content m' log a.
  Proof.
    induction log as [|[b x] log IH]; intros m m' E a; simpl; auto.
    apply IH. intros c. rewrite E. reflexivity.
  Qed.
  Lemma nth_rel s t n : rel s t ->
    match nth_error (p_vars s) n, nth_error (s_handles t) n with
    | Some x, Some h => hrel x h | None, None => True | _, _ => False end.
  Proof.
    intros [F _]. revert n. induction F; intros [|n]; simpl; auto. apply IHF.
  Qed.
  Lemma rel_decl s t x h : rel s t -> hrel x h -> rel (mkP (p_vars s ++ [x]) (p_mem s)) (mkS (s_handles t ++ [h]) (s_log t)).
  Proof.
    intros [A B] C. constructor; simpl; auto. apply Forall2_app; auto.
  Qed.

  Lemma cell_readings h r l : cell (readings h ++ l) r =
    if is_reading r then match cell (a_cells h) r with Some a => Some a | None => cell l r end else cell l r.
  Proof.
    unfold readings. induction (a_cells h) as [|[r' a] cs IH]; simpl.
    - destruct (is_reading r); reflexivity.
    - destruct (is_reading r') eqn:E; simpl.
      + destruct (role_eqb r' r) eqn:Q.
        * destruct r', r; simpl in *; try discriminate; reflexivity.
        * exact IH.
      + rewrite IH. destruct (role_eqb r' r) eqn:Q; auto. destruct r', r; simpl in *; try discriminate; reflexivity.
  Qed.

  Definition agree (a : pst V * shown V) (b : ast V * shown V) : Prop := rel (fst a) (fst b) /\ snd a = snd b.

  (** a list of stores *)
  Fixpoint stores (m : mem V) (l : list (ptr * V)) : res (mem V) :=
    match l with [] => Ret m | (p, x) :: l => bind (store m p x) (fun m => stores m l) end.
  Lemma stores_targets cs vals : forall m log, (forall a, m a = content init log a) ->
    match stores m (map (fun v => (cell cs (fst v), snd v)) vals), targets cs vals with
    | Ret m', Some l => forall a, m' a = content init (log ++ l) a
    | Assert, None => True
    | _, _ => False
    end.
  Proof.
    induction vals as [|[r x] vals IH]; intros m log E; simpl.
    - intros a. rewrite app_nil_r. auto.
    - destruct (cell cs r) as [a|]; simpl; auto.
      specialize (IH (fun b => if Nat.eqb b a then x else m b) (log ++ [(a, x)])).
      destruct (stores _ _) as [m'|msg|]; destruct (targets cs vals) as [l|];
        try (apply IH; intros b; rewrite content_app; simpl; rewrite E; reflexivity).
      intros b. rewrite IH; [rewrite <- app_assoc; reflexivity|].
      intros c. rewrite content_app. simpl. rewrite E. reflexivity.
  Qed.

  Lemma agree_update s t cs vals (r : res (mem V)) : rel s t ->
    r = stores (p_mem s) (map (fun v => (cell cs (fst v), snd v)) vals) ->
    agree (update s r) (match targets cs vals with Some l => (mkS (s_handles t) (s_log t ++ l), Done) | None => (t, Aborted) end).
  Proof.
    intros R ->. pose proof (stores_targets cs vals (p_mem s) (s_log t) (r_mem _ _ R)) as H.
    destruct (stores _ _) as [m'|msg|]; destruct (targets cs vals) as [l|]; try contradiction.
    - split; simpl; auto. constructor; simpl; [apply (r_vars _ _ R)|exact H].
    - split; simpl; auto.
  Qed.

  Lemma agree_query s t (p : ptr) (c : option addr) : rel s t -> p = c ->
    agree (query s (deref (p_mem s) p)) (match c with Some a => (t, Value (content init (s_log t) a)) | None => (t, Aborted) end).
  Proof.
    intros R ->. destruct c as [a|]; split; simpl; auto. rewrite (r_mem _ _ R). reflexivity.
  Qed.

  Lemma store_one (m : mem V) p x : store m p x = stores m [(p, x)].
  Proof. destruct p; reflexivity. Qed.
  Lemma stores_cons (m : mem V) p x l : bind (store m p x) (fun m => stores m l) = stores m ((p, x) :: l).
  Proof. reflexivity. Qed.

  Ltac ok := repeat match goal with H : hrel _ _ |- _ => destruct H as [?O ?K ?N ?C]; simpl in * end.
  Ltac role_solve := try (intros r; destruct r; simpl; reflexivity).

  Lemma refine_step s t c : rel s t -> agree (exec s c) (aexec init t (act_of c)).
  Proof.
    intros R.
    assert (V1 : forall n, match nth_error (p_vars s) n, nth_error (s_handles t) n with
       | Some x, Some h => hrel x h | None, None => True | _, _ => False end) by (intros n; apply nth_rel; auto).
    assert (Ill : agree (s, IllFormed) (t, IllFormed)) by (split; auto).
    destruct c; simpl.
    - split; simpl; auto. apply rel_decl; auto. constructor; simpl; auto; role_solve.
    - unfold sh_make, check. destruct pos; [|split; simpl; auto]. destruct vel; [|split; simpl; auto].
      destruct eff; [|split; simpl; auto]. split; simpl; auto. apply rel_decl; auto. constructor; simpl; auto; role_solve.
    - unfold sh_make_both, check. destruct pos; [|split; simpl; auto]. destruct vel; [|split; simpl; auto].
      destruct eff; [|split; simpl; auto]. destruct abs; [|split; simpl; auto]. destruct tq; [|split; simpl; auto].
      split; simpl; auto. apply rel_decl; auto. constructor; simpl; auto; role_solve.
    - unfold sh_make_abs, check. destruct pos; [|split; simpl; auto]. destruct vel; [|split; simpl; auto].
      destruct eff; [|split; simpl; auto]. destruct abs; [|split; simpl; auto].
      split; simpl; auto. apply rel_decl; auto. constructor; simpl; auto; role_solve.
    - unfold sh_make_tq, check. destruct pos; [|split; simpl; auto]. destruct vel; [|split; simpl; auto].
      destruct eff; [|split; simpl; auto]. destruct tq; [|split; simpl; auto].
      split; simpl; auto. apply rel_decl; auto. constructor; simpl; auto; role_solve.
    - unfold with_js, with_var. specialize (V1 js).
      destruct (nth_error (p_vars s) js) as [x|], (nth_error (s_handles t) js) as [h|]; try contradiction; auto.
      rewrite (r_owner _ _ V1).
      assert (G : agree (declare s (ch_make (state_of x) cmd) (VCmd o))
         match first_null [(KCmd, cmd)] with
         | Some r => (t, Thrown (refusal (a_name h) r))
         | None => (mkS (s_handles t ++ [mkA o HCmd (a_name h) (readings h ++ given [(KCmd, cmd)])]) (s_log t), Done)
         end).
      { unfold ch_make, check. rewrite (r_name _ _ V1). destruct cmd; simpl; [|split; simpl; auto].
        split; simpl; auto. apply rel_decl; auto. constructor; simpl; auto; [apply (r_name _ _ V1)|].
        intros r. rewrite cell_readings. pose proof (r_cells _ _ V1 r) as C.
        destruct r; simpl in *; try rewrite <- C; auto; destruct (state_of x); simpl in *;
        match goal with |- ?p = _ => destruct p; reflexivity end. }
      destruct o, (a_owner h); simpl; auto.
    - unfold with_js, with_var. specialize (V1 js).
      destruct (nth_error (p_vars s) js) as [x|], (nth_error (s_handles t) js) as [h|]; try contradiction; auto.
      rewrite (r_owner _ _ V1). destruct (a_owner h); simpl; auto.
      unfold pv_make, check. rewrite (r_name _ _ V1). destruct p; simpl; [|split; simpl; auto]. destruct v; simpl; [|split; simpl; auto].
      split; simpl; auto. apply rel_decl; auto. constructor; simpl; auto; [apply (r_name _ _ V1)|].
      intros r. rewrite cell_readings. pose proof (r_cells _ _ V1 r) as C.
      destruct r; simpl in *; try rewrite <- C; auto; match goal with |- ?p = _ => destruct p; reflexivity end.
    - unfold with_js, with_var. specialize (V1 js).
      destruct (nth_error (p_vars s) js) as [x|], (nth_error (s_handles t) js) as [h|]; try contradiction; auto.
      rewrite (r_owner _ _ V1). destruct (a_owner h); simpl; auto.
      unfold pva_make, pv_make, check. rewrite (r_name _ _ V1). destruct p; simpl; [|split; simpl; auto]. destruct v; simpl; [|split; simpl; auto].
      destruct a; simpl; [|split; simpl; auto].
      split; simpl; auto. apply rel_decl; auto. constructor; simpl; auto; [apply (r_name _ _ V1)|].
      intros r. rewrite cell_readings. pose proof (r_cells _ _ V1 r) as C.
      destruct r; simpl in *; try rewrite <- C; auto; match goal with |- ?p = _ => destruct p; reflexivity end.
    - unfold with_js, with_var. specialize (V1 js).
      destruct (nth_error (p_vars s) js) as [x|], (nth_error (s_handles t) js) as [h|]; try contradiction; auto.
      rewrite (r_owner _ _ V1). destruct (a_owner h); simpl; auto.
      unfold pvt_make, pv_make, check. rewrite (r_name _ _ V1). destruct p; simpl; [|split; simpl; auto]. destruct v; simpl; [|split; simpl; auto].
      destruct e; simpl; [|split; simpl; auto]. destruct kp; simpl; [|split; simpl; auto]. destruct kd; simpl; [|split; simpl; auto].
      split; simpl; auto. apply rel_decl; auto. constructor; simpl; auto; [apply (r_name _ _ V1)|].
      intros r. rewrite cell_readings. pose proof (r_cells _ _ V1 r) as C.
      destruct r; simpl in *; try rewrite <- C; auto; match goal with |- ?p = _ => destruct p; reflexivity end.
    - split; simpl; auto. constructor; simpl; [apply (r_vars _ _ R)|].
      intros b. rewrite content_app. simpl. rewrite (r_mem _ _ R). reflexivity.
    (* setters *)
    - unfold with_var. specialize (V1 h).
      destruct (nth_error (p_vars s) h) as [x'|], (nth_error (s_handles t) h) as [h'|]; try contradiction; auto.
      rewrite <- (r_kind _ _ V1). pose proof (r_cells _ _ V1) as C.
      destruct x'; simpl; auto.
      apply (agree_update s t (a_cells h') [(KCmd, x)]); auto. simpl map. rewrite <- !C. apply store_one.
    - unfold with_pv, with_var. specialize (V1 h).
      destruct (nth_error (p_vars s) h) as [x'|], (nth_error (s_handles t) h) as [h'|]; try contradiction; auto.
      rewrite <- (r_kind _ _ V1). pose proof (r_cells _ _ V1) as C.
      destruct x'; simpl; auto;
      apply (agree_update s t (a_cells h') [(KPos, x)]); auto; simpl map; rewrite <- !C; apply store_one.
    - unfold with_pv, with_var. specialize (V1 h).
      destruct (nth_error (p_vars s) h) as [x'|], (nth_error (s_handles t) h) as [h'|]; try contradiction; auto.
      rewrite <- (r_kind _ _ V1). pose proof (r_cells _ _ V1) as C.
      destruct x'; simpl; auto;
      apply (agree_update s t (a_cells h') [(KVel, x)]); auto; simpl map; rewrite <- !C; apply store_one.
    - unfold with_pv, with_var. specialize (V1 h).
      destruct (nth_error (p_vars s) h) as [x'|], (nth_error (s_handles t) h) as [h'|]; try contradiction; auto.
      rewrite <- (r_kind _ _ V1). pose proof (r_cells _ _ V1) as C.
      destruct x'; simpl; auto;
      apply (agree_update s t (a_cells h') [(KPos, p); (KVel, v)]); auto; simpl map; rewrite <- !C;
      unfold pv_set, set_cmd_pos, set_cmd_vel; simpl;
      (destruct (pv_pos _) as [a1|]; simpl; auto; destruct (pv_vel _) as [a2|]; reflexivity).
    - unfold with_var. specialize (V1 h).
      destruct (nth_error (p_vars s) h) as [x'|], (nth_error (s_handles t) h) as [h'|]; try contradiction; auto.
      rewrite <- (r_kind _ _ V1). pose proof (r_cells _ _ V1) as C.
      destruct x'; simpl; auto.
      apply (agree_update s t (a_cells h') [(KAcc, x)]); auto. simpl map. rewrite <- !C. apply store_one.
    - unfold with_var. specialize (V1 h).
      destruct (nth_error (p_vars s) h) as [x'|], (nth_error (s_handles t) h) as [h'|]; try contradiction; auto.
      rewrite <- (r_kind _ _ V1). pose proof (r_cells _ _ V1) as C.
      destruct x'; simpl; auto.
      apply (agree_update s t (a_cells h') [(KPos, p); (KVel, v); (KAcc, a)]); auto; simpl map; rewrite <- !C.
      unfold pva_set, set_cmd_pos, set_cmd_vel, set_cmd_acc; simpl.
      destruct (pv_pos _) as [a1|]; simpl; auto; destruct (pv_vel _) as [a2|]; simpl; auto. destruct (pva_acc _); reflexivity.
    - unfold with_var. specialize (V1 h).
      destruct (nth_error (p_vars s) h) as [x'|], (nth_error (s_handles t) h) as [h'|]; try contradiction; auto.
      rewrite <- (r_kind _ _ V1). pose proof (r_cells _ _ V1) as C.
      destruct x'; simpl; auto.
      apply (agree_update s t (a_cells h') [(KEff, x)]); auto. simpl map. rewrite <- !C. apply store_one.
    - unfold with_var. specialize (V1 h).
      destruct (nth_error (p_vars s) h) as [x'|], (nth_error (s_handles t) h) as [h'|]; try contradiction; auto.
      rewrite <- (r_kind _ _ V1). pose proof (r_cells _ _ V1) as C.
      destruct x'; simpl; auto.
      apply (agree_update s t (a_cells h') [(KKp, x)]); auto. simpl map. rewrite <- !C. apply store_one.
    - unfold with_var. specialize (V1 h).
      destruct (nth_error (p_vars s) h) as [x'|], (nth_error (s_handles t) h) as [h'|]; try contradiction; auto.
      rewrite <- (r_kind _ _ V1). pose proof (r_cells _ _ V1) as C.
      destruct x'; simpl; auto.
      apply (agree_update s t (a_cells h') [(KKd, x)]); auto. simpl map. rewrite <- !C. apply store_one.
    - unfold with_var. specialize (V1 h).
      destruct (nth_error (p_vars s) h) as [x'|], (nth_error (s_handles t) h) as [h'|]; try contradiction; auto.
      rewrite <- (r_kind _ _ V1). pose proof (r_cells _ _ V1) as C.
      destruct x'; simpl; auto.
      apply (agree_update s t (a_cells h') [(KPos, p); (KVel, v); (KEff, e); (KKp, kp); (KKd, kd)]); auto; simpl map; rewrite <- !C.
      unfold pvt_set, set_cmd_pos, set_cmd_vel, set_cmd_eff, set_cmd_kp, set_cmd_kd; simpl.
      destruct (pv_pos _) as [a1|]; simpl; auto; destruct (pv_vel _) as [a2|]; simpl; auto.
      destruct (pvt_eff _); simpl; auto. destruct (pvt_kp _); simpl; auto. destruct (pvt_kd _); reflexivity.
    (* getters *)
    - unfold with_var. specialize (V1 h).
      destruct (nth_error (p_vars s) h) as [x'|], (nth_error (s_handles t) h) as [h'|]; try contradiction; auto.
      apply agree_query; auto. apply (r_cells _ _ V1 RPos).
    - unfold with_var. specialize (V1 h).
      destruct (nth_error (p_vars s) h) as [x'|], (nth_error (s_handles t) h) as [h'|]; try contradiction; auto.
      apply agree_query; auto. apply (r_cells _ _ V1 RVel).
    - unfold with_var. specialize (V1 h).
      destruct (nth_error (p_vars s) h) as [x'|], (nth_error (s_handles t) h) as [h'|]; try contradiction; auto.
      apply agree_query; auto. apply (r_cells _ _ V1 REff).
    - unfold with_var. specialize (V1 h).
      destruct (nth_error (p_vars s) h) as [x'|], (nth_error (s_handles t) h) as [h'|]; try contradiction; auto.
      unfold get_absolute, has_absolute. rewrite (r_owner _ _ V1). pose proof (r_cells _ _ V1 RAbs) as C. simpl in C.
      rewrite <- C. destruct (sh_abs (state_of x')); split; simpl; auto; try (rewrite (r_mem _ _ R); reflexivity); destruct (a_owner h'); reflexivity.
    - unfold with_var. specialize (V1 h).
      destruct (nth_error (p_vars s) h) as [x'|], (nth_error (s_handles t) h) as [h'|]; try contradiction; auto.
      unfold get_torque, has_torque. rewrite (r_owner _ _ V1). pose proof (r_cells _ _ V1 RTq) as C. simpl in C.
      rewrite <- C. destruct (sh_tq (state_of x')); split; simpl; auto; try (rewrite (r_mem _ _ R); reflexivity); destruct (a_owner h'); reflexivity.
    - unfold with_var. specialize (V1 h).
      destruct (nth_error (p_vars s) h) as [x'|], (nth_error (s_handles t) h) as [h'|]; try contradiction; auto.
      rewrite <- (r_kind _ _ V1). pose proof (r_cells _ _ V1 KCmd) as C.
      destruct x'; simpl in *; auto. apply agree_query; auto.
    - unfold with_pv, with_var. specialize (V1 h).
      destruct (nth_error (p_vars s) h) as [x'|], (nth_error (s_handles t) h) as [h'|]; try contradiction; auto.
      rewrite <- (r_kind _ _ V1). pose proof (r_cells _ _ V1 KPos) as C.
      destruct x'; simpl in *; auto; apply agree_query; auto.
    - unfold with_pv, with_var. specialize (V1 h).
      destruct (nth_error (p_vars s) h) as [x'|], (nth_error (s_handles t) h) as [h'|]; try contradiction; auto.
      rewrite <- (r_kind _ _ V1). pose proof (r_cells _ _ V1 KVel) as C.
      destruct x'; simpl in *; auto; apply agree_query; auto.
    - unfold with_var. specialize (V1 h).
      destruct (nth_error (p_vars s) h) as [x'|], (nth_error (s_handles t) h) as [h'|]; try contradiction; auto.
      rewrite <- (r_kind _ _ V1). pose proof (r_cells _ _ V1 KAcc) as C.
      destruct x'; simpl in *; auto. apply agree_query; auto.
    - unfold with_var. specialize (V1 h).
      destruct (nth_error (p_vars s) h) as [x'|], (nth_error (s_handles t) h) as [h'|]; try contradiction; auto.
      rewrite <- (r_kind _ _ V1). pose proof (r_cells _ _ V1 KEff) as C.
      destruct x'; simpl in *; auto. apply agree_query; auto.
    - unfold with_var. specialize (V1 h).
      destruct (nth_error (p_vars s) h) as [x'|], (nth_error (s_handles t) h) as [h'|]; try contradiction; auto.
      rewrite <- (r_kind _ _ V1). pose proof (r_cells _ _ V1 KKp) as C.
      destruct x'; simpl in *; auto. apply agree_query; auto.
    - unfold with_var. specialize (V1 h).
      destruct (nth_error (p_vars s) h) as [x'|], (nth_error (s_handles t) h) as [h'|]; try contradiction; auto.
      rewrite <- (r_kind _ _ V1). pose proof (r_cells _ _ V1 KKd) as C.
      destruct x'; simpl in *; auto. apply agree_query; auto.
  Qed.

  Lemma refine_all cs : forall s t, rel s t ->
    rel (fst (exec_all s cs)) (fst (aexec_all init t (map act_of cs))) /\
    snd (exec_all s cs) = snd (aexec_all init t (map act_of cs)).
  Proof.
    induction cs as [|c cs IH]; intros s t R; simpl.
    - auto.
    - pose proof (refine_step s t c R) as [H1 H2].
      destruct (exec s c) as [s1 r], (aexec init t (act_of c)) as [t1 r']. simpl in *. subst r'.
      specialize (IH s1 t1 H1).
      destruct (exec_all s1 cs) as [s2 rs], (aexec_all init t1 (map act_of cs)) as [t2 rs']. simpl in *.
      destruct IH as [I1 I2]. subst rs'.
      destruct r; simpl; auto.
  Qed.
  Lemma rel_start : rel (start init) (mkS [] []).
  Proof. constructor; simpl; auto. Qed.

  (** * No failed assert *)
  Definition checked (t : ast V) : Prop :=
    Forall (fun h => forall r, offers (a_kind h) r = true -> optional r = false -> cell (a_cells h) r <> None) (s_handles t).

  Lemma targets_none cs vals k : (forall r, offers k r = true -> optional r = false -> cell cs r <> None) ->
    forallb (fun v : role * V => offers k (fst v)) vals = true -> (forall v, In v vals -> optional (fst v) = false) ->
    targets cs vals <> None.
  Proof.
    intros H. induction vals as [|[r x] vals IH]; simpl; intros F O; [discriminate|].
    apply andb_prop in F as [F1 F2].
    destruct (cell cs r) eqn:E; [|exfalso; apply (H r F1 (O (r, x) (or_introl eq_refl)) E)].
    destruct (targets cs vals); [discriminate|]. exfalso. apply IH; auto.
  Qed.

  Lemma set_not_optional c h vals : act_of c = Set_ h vals -> forall v : role * V, In v vals -> optional (fst v) = false.
  Proof.
    destruct c; simpl; intros E; try discriminate E; injection E as <- <-; intros v' I; simpl in I;
    repeat (destruct I as [<-|I]; [reflexivity|]); contradiction.
  Qed.

  Lemma first_null_none args r : first_null args = None -> In r (map fst args) -> cell (given args) r <> None.
  Proof.
    induction args as [|[r' [a|]] args IH]; simpl; intros E I; try contradiction; try discriminate.
    destruct (role_eqb r' r) eqn:Q; [discriminate|]. destruct I as [->|I]; auto. destruct r; discriminate.
  Qed.

  Lemma make_covers c o k src args : act_of c = @Make V o k src args ->
    forall r, offers k r = true -> optional r = false -> In r (map fst args) \/ (is_reading r = true /\ exists n, src = inr n) .
  Proof.
    destruct c; simpl; intros E; try discriminate E; injection E as <- <- <- <-; intros r H1 H2; destruct r; simpl in *;
    try discriminate; first [right; split; [reflexivity|eexists; reflexivity] | left; tauto].
  Qed.
  Lemma checked_step t c : checked t -> no_default c ->
    checked (fst (aexec init t (act_of c))) /\ snd (aexec init t (act_of c)) <> Aborted.
  Proof.
    intros C N.
    destruct (act_of c) as [o|o k src args|a x|h vals|h r] eqn:E; simpl.
    - destruct c; simpl in E; try discriminate E. contradiction.
    - assert (G : forall name base, (forall r, is_reading r = true -> optional r = false -> (exists n, src = inr n) -> cell base r <> None) ->
        let p : ast V * shown V := match first_null args with
                 | Some r => (t, Thrown (refusal name r))
                 | None => (mkS (s_handles t ++ [mkA o k name (base ++ given args)]) (s_log t), Done)
                 end in checked (fst p) /\ snd p <> Aborted).
      { intros name base Hb. destruct (first_null args) eqn:F; simpl; [split; [auto|discriminate]|].
        split; [|discriminate]. unfold checked; simpl. apply Forall_app. split; auto. constructor; [|constructor].
        simpl. intros r O1 O2.
        assert (Q : forall l l', cell (l ++ l') r = match cell l r with Some a => Some a | None => cell l' r end).
        { induction l as [|[q b] l IH]; simpl; intros l'; auto. destruct (role_eqb q r); auto. }
        rewrite Q. destruct (cell base r) eqn:B; [discriminate|].
        destruct (make_covers _ _ _ _ _ E r O1 O2) as [I|[I J]].
        - apply first_null_none; auto.
        - exfalso. apply (Hb r I O2 J B). }
      destruct src as [name|js].
      + apply (G name []). intros r _ _ [n D]. discriminate D.
      + destruct (nth_error (s_handles t) js) as [h|] eqn:J; [|split; [auto|discriminate]].
        destruct (same_owner o (a_owner h)); [|split; [auto|discriminate]].
        apply (G (a_name h) (readings h)). intros r I O2 _.
        pose proof (cell_readings h r []) as Q. rewrite app_nil_r, I in Q. rewrite Q.
        pose proof (proj1 (Forall_forall _ _) C h (nth_error_In _ _ J) r) as K. simpl in K.
        destruct (cell (a_cells h) r); [discriminate|]. apply K; auto. destruct r, (a_kind h); simpl in *; try discriminate; auto.
    - split; [exact C|discriminate].
    - destruct (nth_error (s_handles t) h) as [x|] eqn:J; [|split; [auto|discriminate]].
      destruct (forallb _ vals) eqn:F; [|split; [auto|discriminate]].
      pose proof (proj1 (Forall_forall _ _) C x (nth_error_In _ _ J)) as K. simpl in K.
      pose proof (targets_none (a_cells x) vals (a_kind x) K F (set_not_optional c h vals E)) as T.
      destruct (targets _ vals); [|contradiction]. split; [exact C|discriminate].
    - destruct (nth_error (s_handles t) h) as [x|] eqn:J; [|split; [auto|discriminate]].
      destruct (offers (a_kind x) r) eqn:F; [|split; [auto|discriminate]].
      pose proof (proj1 (Forall_forall _ _) C x (nth_error_In _ _ J) r F) as K.
      destruct (cell (a_cells x) r); [split; [auto|discriminate]|].
      destruct (optional r); [split; [auto|discriminate]|]. exfalso. apply K; auto.
  Qed.

  Lemma checked_all cs : forall t, checked t -> Forall no_default cs -> ~ In Aborted (snd (aexec_all init t (map act_of cs))).
  Proof.
    induction cs as [|c cs IH]; intros t C F; simpl; [tauto|].
    inversion F as [|c' cs' F1 F2]; subst. pose proof (checked_step t c C F1) as [C1 A].
    destruct (aexec init t (act_of c)) as [t1 r]. simpl in *. specialize (IH t1 C1 F2).
    destruct (aexec_all init t1 (map act_of cs)) as [t2 rs].
    destruct r; simpl in *; intros I; destruct I as [I|I]; try discriminate I; try contradiction; auto.
  Qed.
  Lemma checked_after cs : forall t, checked t -> Forall no_default cs -> checked (fst (aexec_all init t (map act_of cs))).
  Proof.
    induction cs as [|c cs IH]; intros t C F; simpl; [exact C|].
    inversion F as [|c' cs' F1 F2]; subst. pose proof (checked_step t c C F1) as [C1 _].
    destruct (aexec init t (act_of c)) as [t1 r]. simpl in *. specialize (IH t1 C1 F2).
    destruct (aexec_all init t1 (map act_of cs)) as [t2 rs]. destruct r; simpl in *; auto.
  Qed.
  Lemma command_cell cs n hd : Forall no_default cs -> nth_error (s_handles (fst (aexec_all init (mkS [] []) (map act_of cs)))) n = Some hd ->
    a_kind hd = HCmd -> exists a, cell (a_cells hd) KCmd = Some a.
  Proof.
    intros F N K. assert (C : checked (mkS [] [])) by constructor. pose proof (checked_after cs _ C F) as Q. unfold checked in Q. rewrite Forall_forall in Q.
    specialize (Q hd (nth_error_In _ _ N) KCmd). rewrite K in Q. specialize (Q eq_refl eq_refl). destruct (cell _ _); [eauto|congruence].
  Qed.
End Refine.
