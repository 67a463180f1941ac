(** Property theorems about hardware interfaces, interface managers, conflicts and
    controller initialisation. *)
From Verif Require Import HwTypes SMap SMapProofs ConflictModel ConflictProofs HwModel HwSpec HwProofs HwMgr HwBuilt HwInit HwClaims.
Local Open Scope string_scope.
Local Open Scope list_scope.

(** A robot with two "pos" interfaces (one of its own, one of a sub-robot), a
    non-claiming "state" interface and a "mode" interface that cannot be combined. *)
Definition kd0 (T : string) : tkind :=
  if String.eqb T "pos" then mkKind true true else if String.eqb T "state" then mkKind true false else mkKind false false.
Definition obj_of (hs : list handle) : hobj := mkObj (registry hs) [].
Definition w0 : world := mkWorld (fun i => match i with
  | 0 => obj_of [mkHandle "a" 1; mkHandle "b" 2] | 1 => obj_of [mkHandle "c" 3; mkHandle "b" 4]
  | 2 => obj_of [mkHandle "a" 5; mkHandle "c" 6] | _ => obj_of [] end) 4.
Definition reg (m : mgr) (T : string) (i : nat) : mgr := match register_interface (kd0 T) w0 m T (Some i) with Some m' => m' | None => m end.
Definition sub0 : mgr := reg (reg mgr_new "pos" 1) "state" 2.
Definition m0 : mgr := reg (register_manager (reg mgr_new "pos" 0) sub0) "mode" 3.

Lemma built_m0 : built kd0 w0 m0.
Proof.
  assert (W : world_ok w0).
  { intros i. unfold w0, obj_of. destruct i as [|[|[|i]]]; cbn [w_obj ho_map]; eexists; reflexivity. }
  assert (B : built kd0 w0 sub0).
  { eapply (BReg _ _ (reg mgr_new "pos" 1) "state" 2); try reflexivity; [|cbn; lia].
    eapply (BReg _ _ mgr_new "pos" 1); try reflexivity; [apply BNew; exact W|cbn; lia]. }
  eapply (BReg _ _ (register_manager (reg mgr_new "pos" 0) sub0) "mode" 3); try reflexivity; [|cbn; lia].
  apply BSub; [|exact B]. eapply (BReg _ _ mgr_new "pos" 0); try reflexivity; [apply BNew; exact W|cbn; lia].
Qed.

(** * C30 *)
Theorem C30_get_is_last_registered hs n : rm_get (registry hs) n = registered_last hs n.
Proof. exact (registry_get hs n). Qed.
Print Assumptions C30_get_is_last_registered.
Theorem C30_throws_iff_absent hs n : rm_get (registry hs) n = None <-> ~ exists h, In h hs /\ h_name h = n.
Proof. rewrite registry_get, <- registered_last_iff. destruct (registered_last hs n); split; try tauto; try discriminate. intros H; exfalso; apply H; discriminate. Qed.
Print Assumptions C30_throws_iff_absent.
Theorem C30_names hs : (forall n, In n (rm_names (registry hs)) <-> exists h, In h hs /\ h_name h = n) /\ increasing (rm_names (registry hs)).
Proof. split; [exact (registry_names hs)|exact (registry_increasing hs)]. Qed.
Print Assumptions C30_names.
Example C30_example :
  let hs := [mkHandle "b" 1; mkHandle "a" 2; mkHandle "b" 3] in
  rm_get (registry hs) "b" = Some (mkHandle "b" 3) /\ rm_get (registry hs) "z" = None /\ rm_names (registry hs) = ["a"; "b"].
Proof. vm_compute; auto. Qed.

(** * C31 *)
Theorem C31_concat hss n :
  rm_get (rm_concat (map registry hss) []) n = first_some (fun hs => registered_last hs n) (rev hss).
Proof.
  unfold rm_get. rewrite concat_find.
  - rewrite <- map_rev, first_map. rewrite (first_some_ext (fun x => sfind n (registry x)) (fun hs => registered_last hs n)).
    + destruct (first_some _ (rev hss)); reflexivity.
    + intros hs _. exact (registry_get hs n).
  - apply Forall_forall. intros m Hm. apply in_map_iff in Hm as (hs & <- & _). apply wfm_registry.
Qed.
Print Assumptions C31_concat.
Theorem C31_names hss : (forall n, In n (rm_names (rm_concat (map registry hss) [])) <-> exists hs h, In hs hss /\ In h hs /\ h_name h = n) /\
  increasing (rm_names (rm_concat (map registry hss) [])).
Proof.
  split; [|apply sorted_increasing; apply (wfm_concat (map registry hss) [] wfm_nil)]. intros n. unfold rm_names. rewrite <- sfind_in_keys.
  fold (rm_get (rm_concat (map registry hss) []) n). rewrite C31_concat, first_rev. split.
  - intros (hs & H1 & H2). apply registered_last_iff in H2 as (h & H2 & H3). eauto.
  - intros (hs & h & H1 & H2 & H3). exists hs. split; [exact H1|]. apply registered_last_iff. eauto.
Qed.
Print Assumptions C31_names.
Example C31_example :
  let m := rm_concat (map registry [[mkHandle "b" 1; mkHandle "a" 2]; []; [mkHandle "b" 3]]) [] in
  rm_get m "b" = Some (mkHandle "b" 3) /\ rm_get m "a" = Some (mkHandle "a" 2) /\ rm_names m = ["a"; "b"].
Proof. vm_compute; auto. Qed.

(** * C32 *)
Theorem C32_claims c ops n : In n (ho_claims (iface_run c ops)) <-> c = true /\ obtained ops n.
Proof. exact (claims_iff c ops n). Qed.
Print Assumptions C32_claims.
Theorem C32_get_handle c ops n : snd (iface_step c (iface_run c ops) (IGet n)) = Some (registered_last (handles_of ops) n).
Proof. exact (get_answer c ops n). Qed.
Print Assumptions C32_get_handle.
Example C32_example :
  let ops := [IReg (mkHandle "b" 1); IReg (mkHandle "a" 2); IGet "a"; IClear; IGet "z"; IGet "b"] in
  ho_claims (iface_run true ops) = ["b"] /\ ho_claims (iface_run false ops) = [] /\ obtained ops "b" /\ ~ obtained ops "a".
Proof.
  cbv zeta. split; [reflexivity|]. split; [reflexivity|].
  pose proof (claims_iff true [IReg (mkHandle "b" 1); IReg (mkHandle "a" 2); IGet "a"; IClear; IGet "z"; IGet "b"]) as H.
  split; [apply (H "b"); vm_compute; auto|]. intros X. assert (Y : true = true /\ obtained _ "a") by (split; [reflexivity|exact X]). apply H in Y. vm_compute in Y. intuition discriminate.
Qed.

(** * C33 *)
Theorem C33_conflict_exact infos :
  check_for_conflict infos = true <-> exists r p q, p <> q /\ claim_at infos p r /\ claim_at infos q r.
Proof. exact (conflict_exact infos). Qed.
Print Assumptions C33_conflict_exact.
Theorem C33_two_controllers infos i j ci cj fi fj r :
  i <> j -> nth_error infos i = Some ci -> nth_error infos j = Some cj ->
  In fi (ci_claims ci) -> In fj (ci_claims cj) -> In r (ir_res fi) -> In r (ir_res fj) -> check_for_conflict infos = true.
Proof.
  intros N Hi Hj Hfi Hfj Hri Hrj. apply C33_conflict_exact.
  apply In_nth_error in Hfi as (a & Ha). apply In_nth_error in Hfj as (b & Hb). apply In_nth_error in Hri as (x & Hx). apply In_nth_error in Hrj as (y & Hy).
  exists r, (i, a, x), (j, b, y). split; [congruence|]. split; [exists ci, fi|exists cj, fj]; auto.
Qed.
Print Assumptions C33_two_controllers.
Example C33_example :
  check_for_conflict [mkInfo "a" "T" [mkIface "pos" ["j1"; "j2"]]; mkInfo "b" "T" [mkIface "vel" ["j2"]]] = true /\
  check_for_conflict [mkInfo "a" "T" [mkIface "pos" ["j1"; "j2"]]; mkInfo "b" "T" [mkIface "vel" ["j3"]; mkIface "eff" []]] = false.
Proof. vm_compute; auto. Qed.

(** * C34 *)
Theorem C34_single_controller c : check_for_conflict [c] = false <->
  forall r j k j' k', claim_at [c] (0, j, k) r -> claim_at [c] (0, j', k') r -> j = j' /\ k = k'.
Proof.
  rewrite conflict_iff, claims_pos. split.
  - intros H r j k j' k' A B. assert (X : (0, j, k) = (0, j', k')) by (apply (H r); auto). split; congruence.
  - intros H r [[i j] k] [[i' j'] k'] A B. destruct i as [|[|i]]; [|destruct A as (? & ? & A & _); discriminate..].
    destruct i' as [|[|i']]; [|destruct B as (? & ? & B & _); discriminate..]. destruct (H r j k j' k' A B) as [-> ->]. reflexivity.
Qed.
Print Assumptions C34_single_controller.
Theorem C34_single_controller_refuted : exists c, check_for_conflict [c] = true.
Proof. exists (mkInfo "a" "T" [mkIface "pos" ["j1"]; mkIface "vel" ["j1"]]). vm_compute. reflexivity. Qed.
Print Assumptions C34_single_controller_refuted.
Example C34_example : check_for_conflict [mkInfo "a" "T" [mkIface "pos" ["j1"]; mkIface "vel" ["j2"]]] = false.
Proof. vm_compute; reflexivity. Qed.

(** * C35 *)
Theorem C35_reported_claims kd T others b1 b2 w m m' w' claims :
  built kd w m -> tk_rm (kd T) = true -> init_request (kd T) T others b1 b2 m w = (m', w', OutOk claims) ->
  exists hw res, (exists m1 w1, get (kd T) T m w = (m1, w1, Some hw)) /\ claims = [mkIface T res] /\ increasing res /\
    (forall n, In n res <-> provides w m T n /\
       ((tk_claiming (kd T) = true /\ calls_of b1 b2 None n) \/ exists j, others j = Some (hw, true) /\ calls_of b1 b2 (Some j) n)) /\
    ho_claims (w_obj w' hw) = [] /\ b_ret b1 = Some true /\ b_ret b2 = Some true.
Proof. exact (init_claims kd T others b1 b2 w m m' w' claims). Qed.
Print Assumptions C35_reported_claims.
Theorem C35_success_iff k T others b1 b2 m w m1 w1 hw m' w' r :
  get k T m w = (m1, w1, Some hw) -> init_request k T others b1 b2 m w = (m', w', r) ->
  ((exists claims, r = OutOk claims) <->
   let locate r := match r with None => Some (hw, tk_claiming k) | Some j => others j end in
   (b_ret b1 = Some true /\ calls_succeed locate w1 b1) /\ (b_ret b2 = Some true /\ calls_succeed locate w1 b2)).
Proof. exact (init_request_success k T others b1 b2 m w m1 w1 hw m' w' r). Qed.
Print Assumptions C35_success_iff.
(** It returns false if one of the two functions does (the second is asked only if the first agrees); an exception
    goes through. *)
Theorem C35_false_iff k T others b1 b2 m w m1 w1 hw m' w' r :
  get k T m w = (m1, w1, Some hw) -> init_request k T others b1 b2 m w = (m', w', r) ->
  (r = OutFalse <->
   let locate r := match r with None => Some (hw, tk_claiming k) | Some j => others j end in
   calls_succeed locate w1 b1 /\
   (b_ret b1 = Some false \/ b_ret b1 = Some true /\ b_ret b2 = Some false /\ calls_succeed locate w1 b2)).
Proof. exact (init_request_false k T others b1 b2 m w m1 w1 hw m' w' r). Qed.
Print Assumptions C35_false_iff.
Theorem C35_missing_interface kd T others b1 b2 w m m' w' r :
  built kd w m -> init_request (kd T) T others b1 b2 m w = (m', w', r) -> ~ exposed kd m T -> r = OutFalse /\ world_le w w'.
Proof. exact (init_missing kd T others b1 b2 w m m' w' r). Qed.
Print Assumptions C35_missing_interface.
Theorem C35_initialized_iff constructed r :
  snd (init_request_state constructed r) = true <-> constructed = true /\ exists claims, r = OutOk claims.
Proof. destruct constructed, r; cbn; split; try discriminate; try (intros (? & ? & ?); discriminate); try (intros (? & ?); discriminate); eauto. Qed.
Print Assumptions C35_initialized_iff.
(** Leftover claims of a failed controller are not reported. *)
Example C35_example :
  let w1 := set_obj w0 1 (mkObj (ho_map (w_obj w0 1)) ["c"]) in
  snd (init_request (kd0 "pos") "pos" (fun _ => None) (mkBody [(None, "b", false); (None, "z", true)] (Some true)) (mkBody [] (Some true)) sub0 w1)
    = OutOk [mkIface "pos" ["b"]] /\
  snd (init_request (kd0 "state") "state" (fun _ => None) (mkBody [(None, "a", false)] (Some true)) (mkBody [] (Some true)) sub0 w1)
    = OutOk [mkIface "state" []] /\
  snd (init_request (kd0 "pos") "pos" (fun _ => None) (mkBody [(None, "z", false)] (Some true)) (mkBody [] (Some true)) sub0 w1) = OutThrow /\
  snd (init_request (kd0 "eff") "eff" (fun _ => None) (mkBody [] (Some true)) (mkBody [] (Some true)) sub0 w1) = OutFalse /\
  snd (init_request (kd0 "pos") "pos" (fun _ => None) (mkBody [] (Some true)) (mkBody [(None, "b", false)] (Some false)) sub0 w1) = OutFalse.
Proof. vm_compute; auto. Qed.

(** * C36 *)
Theorem C36_multi_interface kd optional Ts b1 b2 m w m' w' seen r :
  built kd w m -> multi_init kd optional Ts b1 b2 m w = (m', w', seen, r) ->
  built kd w' m' /\ same_regs m m' /\
  (seen = None <-> optional = false /\ exists T, In T Ts /\ ~ exposed kd m T) /\
  (seen = None -> r = OutFalse) /\
  (forall out, seen = Some out ->
     (forall T, In T Ts -> exposed kd m T -> exists i, flat_get out T = Some i /\ stands kd m w w' T i) /\
     (forall T, ~ (In T Ts /\ exposed kd m T) -> flat_get out T = None) /\
     (forall claims, r = OutOk claims ->
        b_ret b1 = Some true /\ b_ret b2 = Some true /\
        (exists ress, claims = map (fun x => mkIface (fst x) (snd x)) ress /\
           map fst ress = filter (fun T => match flat_get out T with Some _ => true | None => false end) Ts /\
           forall T res, In (T, res) ress -> increasing res /\ forall n, In n res <->
              exists T', calls_of b1 b2 T' n /\ tk_claiming (kd T') = true /\ flat_get out T' = flat_get out T /\
                exists i, flat_get out T = Some i /\ rm_get (ho_map (w_obj w' i)) n <> None) /\
        (forall T i, In T Ts -> flat_get out T = Some i -> ho_claims (w_obj w' i) = []))).
Proof. exact (multi_spec kd optional Ts b1 b2 m w m' w' seen r). Qed.
Print Assumptions C36_multi_interface.
Theorem C36_success_iff kd optional Ts b1 b2 m w m' w' out r : multi_init kd optional Ts b1 b2 m w = (m', w', Some out, r) ->
  ((exists claims, r = OutOk claims) <->
   let locate T := match flat_get out T with Some i => Some (i, tk_claiming (kd T)) | None => None end in
   (b_ret b1 = Some true /\ calls_succeed locate w' b1) /\ (b_ret b2 = Some true /\ calls_succeed locate w' b2)).
Proof. apply multi_success. Qed.
Print Assumptions C36_success_iff.
Theorem C36_false_iff kd optional Ts b1 b2 m w m' w' out r : multi_init kd optional Ts b1 b2 m w = (m', w', Some out, r) ->
  (r = OutFalse <->
   let locate T := match flat_get out T with Some i => Some (i, tk_claiming (kd T)) | None => None end in
   calls_succeed locate w' b1 /\
   (b_ret b1 = Some false \/ b_ret b1 = Some true /\ b_ret b2 = Some false /\ calls_succeed locate w' b2)).
Proof. apply multi_false. Qed.
Print Assumptions C36_false_iff.
Example C36_example :
  let b := mkBody [("pos", "c", false); ("state", "a", false); ("eff", "x", true)] (Some true) in
  let b' := mkBody [("pos", "a", false)] (Some true) in
  snd (multi_init kd0 true ["state"; "eff"; "pos"] b b' m0 w0) = OutOk [mkIface "state" []; mkIface "pos" ["a"; "c"]] /\
  snd (multi_init kd0 false ["state"; "eff"; "pos"] b b' m0 w0) = OutFalse /\
  snd (multi_init kd0 true ["state"; "eff"; "pos"] (mkBody [("pos", "c", false)] (Some false)) b' m0 w0) = OutFalse.
Proof. vm_compute; auto. Qed.

(** * C37 *)
Theorem C37_lookup kd T w m m' w' p : built kd w m -> tk_rm (kd T) = true -> get (kd T) T m w = (m', w', p) ->
  (p = None <-> ~ has_type T m) /\
  (forall c, p = Some c ->
     (forall n, rm_get (ho_map (w_obj w' c)) n = first_some (fun i => rm_get (ho_map (w_obj w i)) n) (rev (leaves T m))) /\
     (forall j, leaves T m = [j] -> c = j)).
Proof.
  intros Hb Hk Hg. destruct (lookup_rm kd T w m m' w' p Hb Hk Hg) as (A & B & _). split.
  - rewrite A, (has_type_leaves kd w m T Hb). destruct (leaves T m); split; auto; try tauto; try discriminate. intros H. exfalso. apply H. discriminate.
  - intros c Hc. apply B; exact Hc.
Qed.
Print Assumptions C37_lookup.
(** The union: a resource is there iff some interface has it, and comes from the last one that has it. *)
Theorem C37_lookup_union kd T w m m' w' c n : built kd w m -> tk_rm (kd T) = true -> get (kd T) T m w = (m', w', Some c) ->
  (rm_get (ho_map (w_obj w' c)) n <> None <-> provides w m T n).
Proof. intros Hb Hk Hg. exact (lookup_provides kd T w m m' w' c Hb Hk Hg n). Qed.
Print Assumptions C37_lookup_union.
(** Interfaces that cannot be combined. *)
Theorem C37_lookup_single kd T w m m' w' p : built kd w m -> tk_rm (kd T) = false -> get (kd T) T m w = (m', w', p) ->
  w' = w /\ m' = m /\
  (leaves T m = [] -> p = None) /\ (forall i, leaves T m = [i] -> p = Some i) /\ (forall i, p = Some i -> In i (leaves T m)).
Proof.
  intros Hb Hk Hg. rewrite (lookup_single kd T w m Hb Hk) in Hg. injection Hg as <- <- <-. split; [reflexivity|]. split; [reflexivity|].
  split; [apply sole_none|]. split; [|apply sole_in]. intros i Hi. destruct (built_inv _ _ _ Hb) as (_ & Ho & _). exact (sole_one kd T w m i Ho Hi).
Qed.
Print Assumptions C37_lookup_single.
Example C37_example : built kd0 w0 m0 /\ leaves "pos" m0 = [0; 1] /\
  (let '(m1, w1, p) := get (kd0 "pos") "pos" m0 w0 in p = Some 4 /\ ho_map (w_obj w1 4) = registry [mkHandle "a" 1; mkHandle "b" 4; mkHandle "c" 3]) /\
  (let '(_, _, p) := get (kd0 "state") "state" m0 w0 in p = Some 2) /\
  (let '(_, _, p) := get (kd0 "mode") "mode" m0 w0 in p = Some 3) /\
  (let '(_, _, p) := get (kd0 "mode") "mode" (register_manager m0 (reg mgr_new "mode" 2)) w0 in p = None) /\
  (let '(_, _, p) := get (kd0 "eff") "eff" m0 w0 in p = None).
Proof. split; [exact built_m0|]. vm_compute. repeat split; reflexivity. Qed.

(** What registering does: an interface takes the place of the one that the manager itself had for the type, if any, and comes first; a
    sub-manager's interfaces come after those registered so far. *)
Theorem C37_registered k w m T i :
  exists m', register_interface k w m T (Some i) = Some m' /\
    (flat_get m T = None -> leaves T m' = i :: leaves T m) /\
    (forall j, flat_get m T = Some j -> exists l, leaves T m = j :: l /\ leaves T m' = i :: l) /\
    (forall T', T' <> T -> leaves T' m' = leaves T' m) /\ (forall T', has_type T' m' <-> T' = T \/ has_type T' m).
Proof. apply register_leaves. Qed.
Print Assumptions C37_registered.
Theorem C37_sub_manager m s T :
  leaves T (register_manager m s) = leaves T m ++ leaves T s /\ leaves T mgr_new = [] /\
  (has_type T (register_manager m s) <-> has_type T m \/ has_type T s) /\ ~ has_type T mgr_new.
Proof. apply sub_leaves. Qed.
Print Assumptions C37_sub_manager.
Example C37_registered_example : leaves "pos" (reg m0 "pos" 2) = [2; 1] /\ leaves "pos" (reg m0 "eff" 2) = [0; 1] /\ leaves "eff" (reg m0 "eff" 2) = [2] /\ leaves "pos" (register_manager m0 m0) = [0; 1; 0; 1].
Proof. vm_compute. auto. Qed.

(** * C38 *)
(** For a manager with any history of registrations and lookups that is orderly in
    the sense of [built]: the second of two lookups, with further such
    operations in between, shows what is registered by then. *)
Theorem C38_stays_up_to_date kd T w m m1 w1 p1 w2 m2 m3 w3 p :
  built kd w m -> tk_rm (kd T) = true -> get (kd T) T m w = (m1, w1, p1) ->
  built kd w2 m2 -> get (kd T) T m2 w2 = (m3, w3, p) ->
  (p = None <-> ~ has_type T m2) /\
  (forall c n, p = Some c -> rm_get (ho_map (w_obj w3 c)) n = first_some (fun i => rm_get (ho_map (w_obj w2 i)) n) (rev (leaves T m2))) /\
  built kd w1 m1 /\ built kd w3 m3 /\ (forall T', leaves T' m3 = leaves T' m2).
Proof.
  intros Hb Hk Hg Hb2 Hg2. destruct (C37_lookup kd T w2 m2 m3 w3 p Hb2 Hk Hg2) as [A B].
  destruct (lookup_rm kd T w2 m2 m3 w3 p Hb2 Hk Hg2) as (_ & _ & _ & C & D).
  split; [exact A|]. split; [intros c n Hc; apply (B c Hc)|]. split; [exact (BGet kd w m T m1 w1 p1 Hb Hg)|]. split; [exact C|exact D].
Qed.
Print Assumptions C38_stays_up_to_date.
(** Witnesses against the unrestricted claim: a handle registered after the first
    lookup, a replaced interface, an interface registered with a sub-manager whose count of interfaces stays. *)
Theorem C38_late_handle_refuted :
  let '(m1, w1, p1) := get (kd0 "pos") "pos" m0 w0 in
  let w2 := set_obj w1 1 (add_handle (w_obj w1 1) (mkHandle "late" 7)) in
  let '(m2, w3, p2) := get (kd0 "pos") "pos" m1 w2 in
  p1 = p2 /\ exists c, p2 = Some c /\ rm_get (ho_map (w_obj w3 c)) "late" = None /\ provides w2 m1 "pos" "late".
Proof.
  vm_compute. split; [reflexivity|]. exists 4. split; [reflexivity|]. split; [reflexivity|]. exists 1. split; [auto|]. discriminate.
Qed.
Print Assumptions C38_late_handle_refuted.
Theorem C38_replaced_refuted :
  let '(m1, w1, p1) := get (kd0 "pos") "pos" m0 w0 in
  exists m2, register_interface (kd0 "pos") w1 m1 "pos" (Some 2) = Some m2 /\
  let '(m3, w3, p2) := get (kd0 "pos") "pos" m2 w1 in
  leaves "pos" m2 = [2; 1] /\ p1 = p2 /\ exists c, p2 = Some c /\ rm_get (ho_map (w_obj w3 c)) "a" = Some (mkHandle "a" 1) /\
    first_some (fun i => rm_get (ho_map (w_obj w1 i)) "a") (rev (leaves "pos" m2)) = Some (mkHandle "a" 5).
Proof. vm_compute. eexists. split; [reflexivity|]. repeat split. exists 4. repeat split. Qed.
Print Assumptions C38_replaced_refuted.
(** The sub-manager, being a C++ pointer, gets a sub-manager of its own. *)
Definition add_deep (m x : mgr) : mgr :=
  match m with Mgr i c n r (s :: subs) => Mgr i c n r (register_manager s x :: subs) | _ => m end.
Theorem C38_nested_refuted :
  let '(m1, w1, p1) := get (kd0 "pos") "pos" m0 w0 in
  let m2 := add_deep m1 (reg mgr_new "pos" 2) in
  let '(m3, w3, p2) := get (kd0 "pos") "pos" m2 w1 in
  leaves "pos" m2 = [0; 1; 2] /\ p1 = p2 /\ exists c, p2 = Some c /\ rm_get (ho_map (w_obj w3 c)) "a" = Some (mkHandle "a" 1) /\
    first_some (fun i => rm_get (ho_map (w_obj w1 i)) "a") (rev (leaves "pos" m2)) = Some (mkHandle "a" 5).
Proof. vm_compute. repeat split. exists 4. repeat split. Qed.
Print Assumptions C38_nested_refuted.
Example C38_example :
  let '(m1, w1, p1) := get (kd0 "pos") "pos" m0 w0 in
  let m2 := register_manager m1 (reg mgr_new "pos" 2) in
  let '(m3, w3, p2) := get (kd0 "pos") "pos" m2 w1 in
  p1 = Some 4 /\ p2 = Some 5 /\ rm_get (ho_map (w_obj w3 5)) "c" = Some (mkHandle "c" 6).
Proof. vm_compute. auto. Qed.

(** * C39 *)
Theorem C39_names kd w m : built kd w m -> NoDup (im_names m) /\ forall T, In T (im_names m) <-> has_type T m.
Proof. intros Hb. split; [exact (names_nodup kd w m Hb)|exact (names_in m)]. Qed.
Print Assumptions C39_names.
Theorem C39_resources kd w m T : built kd w m -> tk_rm (kd T) = true ->
  iface_resources T m = flat_map (fun i => rm_names (ho_map (w_obj w i))) (leaves T m) /\
  forall n, In n (iface_resources T m) <-> provides w m T n.
Proof.
  intros Hb Hk. pose proof (resources_of kd w m T Hb Hk) as E. split; [exact E|]. intros n. rewrite E, in_flat_map. unfold provides, rm_names, rm_get.
  split; intros (i & H1 & H2); exists i; (split; [exact H1|]); apply sfind_in_keys; exact H2.
Qed.
Print Assumptions C39_resources.
(** A handle registered after its interface is missing from the listing. *)
Theorem C39_late_handle_refuted : exists w m T n, In T (im_names m) /\ provides w m T n /\ ~ In n (iface_resources T m).
Proof.
  exists (set_obj w0 1 (add_handle (w_obj w0 1) (mkHandle "late" 7))), m0, "pos", "late". split; [vm_compute; auto|].
  split; [exists 1; split; [vm_compute; auto|vm_compute; discriminate]|]. vm_compute. intuition discriminate.
Qed.
Print Assumptions C39_late_handle_refuted.
Example C39_example : im_names m0 = ["mode"; "pos"; "state"] /\ iface_resources "pos" m0 = ["a"; "b"; "b"; "c"] /\ iface_resources "mode" m0 = [].
Proof. vm_compute; auto. Qed.
