(** Property theorems about controller_manager_msgs/utils.py. *)
From Coq Require Import Ascii Sorted Lia.
From Verif Require Import UtilsModel UtilsSpec UtilsProofs.
Local Open Scope string_scope.
Local Open Scope list_scope.

Definition arm : lc_entry := mkEntry "arm" "pkg/Arm" [mkIface "Position" ["j1"; "j2"]; mkIface "Effort" ["j3"]] "running".
Definition hand : lc_entry := mkEntry "hand" "pkg/Hand" [mkIface "Effort" ["j4"]] "stopped".
Definition cam : lc_entry := mkEntry "camera" "pkg/Camera" [] "running".

(** * C71: filters *)
Theorem C71_attributes l v :
  selection (fun c => en_name c = v) l (filter_by_name l v false) /\ selection (fun c => occurs v (en_name c)) l (filter_by_name l v true) /\
  selection (fun c => en_type c = v) l (filter_by_type l v false) /\ selection (fun c => occurs v (en_type c)) l (filter_by_type l v true) /\
  selection (fun c => en_state c = v) l (filter_by_state l v false) /\ selection (fun c => occurs v (en_state c)) l (filter_by_state l v true).
Proof.
  destruct (attr_select l en_name v). destruct (attr_select l en_type v). destruct (attr_select l en_state v). auto 7.
Qed.
Print Assumptions C71_attributes.
Theorem C71_hardware_interface l hi :
  selection (fun c => exists rs, In rs (en_claims c) /\ ir_iface rs = hi) l (filter_by_hardware_interface l hi false) /\
  selection (fun c => exists rs, In rs (en_claims c) /\ occurs hi (ir_iface rs)) l (filter_by_hardware_interface l hi true).
Proof. split; [exact (hi_select l hi false) | exact (hi_select l hi true)]. Qed.
Print Assumptions C71_hardware_interface.
Theorem C71_resources l resources hi match_any : resources <> [] ->
  exists out, filter_by_resources l resources hi match_any = Some out /\ selection (matches_resources resources hi match_any) l out.
Proof. intros H. now apply resources_select. Qed.
Print Assumptions C71_resources.
(** With no resources at all the function raises, as soon as a controller claims something at the interface. *)
Theorem C71_no_resources_refuted :
  exists l hi match_any, filter_by_resources l [] hi match_any = None /\ exists out, selection (matches_resources [] hi match_any) l out.
Proof.
  exists [arm], None, false. split; [reflexivity|]. exists [arm]. apply sel_take; [|constructor].
  exists (mkIface "Effort" ["j3"]). split; [cbn; auto|]. split; [discriminate | intros r []].
Qed.
Print Assumptions C71_no_resources_refuted.
Theorem C71_no_resources l hi match_any :
  (filter_by_resources l [] hi match_any = None <-> exists c rs, In c l /\ In rs (en_claims c) /\ forall i, hi = Some i -> ir_iface rs = i) /\
  (filter_by_resources l [] hi match_any = None \/ filter_by_resources l [] hi match_any = Some []).
Proof.
  rewrite resources_empty. destruct (existsb _ l) eqn:E; (split; [|auto]); split.
  - intros _. apply existsb_exists in E as (c & Hc & E). apply existsb_exists in E as (rs & Hr & E). pose proof (proj1 (hi_test hi rs) E). eauto 6.
  - reflexivity.
  - discriminate.
  - intros (c & rs & Hc & Hr & H). exfalso. apply (proj2 (hi_test hi rs)) in H.
    assert (X : existsb (fun c => existsb (fun rs => match hi with None => true | Some i => String.eqb i (ir_iface rs) end) (en_claims c)) l = true);
      [|congruence]. apply existsb_exists. exists c. split; [exact Hc|]. apply existsb_exists. eauto.
Qed.
Print Assumptions C71_no_resources.
Example C71_example :
  filter_by_name [arm; hand; cam] "a" true = [arm; hand; cam] /\ filter_by_state [arm; hand; cam] "running" false = [arm; cam] /\
  filter_by_type [arm; hand; cam] "pkg/H" true = [hand] /\ filter_by_hardware_interface [arm; hand; cam] "Effort" false = [arm; hand] /\
  filter_by_resources [arm; hand; cam] ["j3"; "j4"] None true = Some [arm; hand] /\
  filter_by_resources [arm; hand; cam] ["j1"; "j3"] None false = Some [] /\
  filter_by_resources [arm; hand; cam] ["j2"; "j1"] (Some "Position") false = Some [arm].
Proof. vm_compute. repeat split. Qed.

(** * C74: controller configurations on the parameter server *)
Theorem C74_names params ns g : global_prefix ns g ->
  exists l, get_rosparam_controller_names params ns = Some l /\ ordered l /\
    (forall n, In n l <-> no_slash n /\ In (g ++ n ++ "/type")%string params) /\ (NoDup params -> NoDup l).
Proof. intros H. rewrite (global_unique ns g (make_global_ns ns) H (global_ns_spec ns)). apply param_names. Qed.
Print Assumptions C74_names.
Theorem C74_prefix ns : exists g, global_prefix ns g /\ forall g', global_prefix ns g' -> g' = g.
Proof. exists (make_global_ns ns). split; [apply global_ns_spec|]. intros g' H. eapply global_unique; [exact H | apply global_ns_spec]. Qed.
Print Assumptions C74_prefix.
Example C74_example :
  get_rosparam_controller_names ["/r/b/type"; "/r/a/type"; "/r/a/joints"; "/r/c/sub/type"; "/q/d/type"; "/type"; "/r/type"; "/x/r/e/type"] "r" = Some ["a"; "b"] /\
  get_rosparam_controller_names ["/b/type"; "/type"; "/r/b/type"; "//type"] "/" = Some [""; "b"] /\ global_prefix "r" "/r/".
Proof. split; [vm_compute; reflexivity|]. split; [vm_compute; reflexivity | exact (global_ns_spec "r")]. Qed.

(** * C75: discovery of controller managers *)

(** Every namespace with the whole API is found, whatever has been guessed. *)
Theorem C75_complete l types guess m :
  proper m -> ~ occurs "/list_controllers" m -> In (service_at m "list_controllers") l -> full_api types m ->
  In m (get_controller_managers (Some l) types guess).
Proof.
  intros P N H F. apply managers_in. split; [|right; now apply is_manager_spec]. exists l, (service_at m "list_controllers"). split; [reflexivity|]. split; [exact H|].
  unfold service_at, shows. destruct (String.eqb_spec m "/") as [->|Hm].
  - exists "", "". split; [reflexivity|]. split; [rewrite <- contains_spec; discriminate | auto].
  - exists m, "". split; [reflexivity|]. split; [exact N|]. left. split; [|reflexivity]. destruct P as [P|[P _]]; congruence.
Qed.
Print Assumptions C75_complete.
(** What is returned is advertised, and is a manager or has been guessed. *)
Theorem C75_sound srvs types guess m : In m (get_controller_managers srvs types guess) ->
  (exists l t, srvs = Some l /\ (In (m ++ "/list_controllers" ++ t)%string l \/ m = "/" /\ In ("/list_controllers" ++ t)%string l)) /\
  (In m guess \/ (proper m -> full_api types m)).
Proof.
  intros H. apply managers_in in H as [(l & s & E & Hs & a & t & -> & _ & M) H]. split.
  - exists l, t. split; [exact E|]. destruct M as [[_ ->]|[-> ->]]; auto.
  - destruct H as [H|H]; [auto|]. right. intros P. now apply is_manager_spec.
Qed.
Print Assumptions C75_sound.
Theorem C75_ordered srvs types guess : ordered (get_controller_managers srvs types guess).
Proof. apply sorted_ordered. Qed.
Print Assumptions C75_ordered.
(** Nothing is listed twice, if the guess has no duplicates and no two services show the same namespace. *)
Theorem C75_no_duplicates l types guess :
  NoDup guess -> (forall l1 s l2 s' l3 m, l = l1 ++ s :: l2 ++ s' :: l3 -> shows s m -> ~ shows s' m) ->
  NoDup (get_controller_managers (Some l) types guess).
Proof. intros H1 H2. apply managers_nodup; [exact H1 | now apply sloppy_nodup]. Qed.
Print Assumptions C75_no_duplicates.
(** Asked again in the same situation with the previous result as guess, the result is the same. *)
Theorem C75_stable srvs types guess :
  get_controller_managers srvs types (get_controller_managers srvs types guess) = get_controller_managers srvs types guess.
Proof. apply managers_again. Qed.
Print Assumptions C75_stable.
Theorem C75_unreachable types guess : get_controller_managers None types guess = [].
Proof.
  destruct (get_controller_managers None types guess) as [|m l] eqn:E; [reflexivity|]. exfalso.
  assert (H : In m (get_controller_managers None types guess)) by (rewrite E; now left). apply managers_in in H as [(l0 & s & X & _) _]. discriminate X.
Qed.
Print Assumptions C75_unreachable.
(** A lister (ControllerManagerLister) called again and again, while the system changes: the k-th result has exactly the namespaces
    that had the whole API at some call up to the k-th, and have been advertised at every call since. *)
Theorem C75_lister calls k r m : proper m -> nth_error (lister [] calls) k = Some r ->
  (In m r <-> exists j c, (j <= k)%nat /\ nth_error calls j = Some c /\ full_api (snd c) m /\
                forall i c', (j <= i <= k)%nat -> nth_error calls i = Some c' -> listed_ns (fst c') m).
Proof. intros P E. rewrite (lister_history calls [] k r m P E). split; [intros [[[] _]|H]; exact H | auto]. Qed.
Print Assumptions C75_lister.

(** For the examples: the API at /foo (and at the root), and some more services. *)
Definition types1 (n : string) : option string :=
  match find (fun s => String.eqb n ("/foo/" ++ fst s) || String.eqb n ("/" ++ fst s)) cm_services with Some s => Some (snd s) | None => None end.
Definition srvs1 : list string := ["/list_controllers"; "/foo/list_controllers"; "/foo/load_controller"; "/bar/list_controllers"].
Example C75_example :
  get_controller_managers (Some srvs1) types1 [] = ["/"; "/foo"] /\ proper "/foo" /\ full_api types1 "/foo" /\ full_api types1 "/" /\
  (forall l1 s l2 s' l3 m, srvs1 = l1 ++ s :: l2 ++ s' :: l3 -> shows s m -> ~ shows s' m).
Proof.
  split; [vm_compute; reflexivity|]. split; [right; split; [discriminate | rewrite <- ends_slash_spec; discriminate]|].
  split; [vm_compute; repeat split|]. split; [vm_compute; repeat split|].
  intros l1 s l2 s' l3 m E H1 H2. apply shows_ns in H1 as [C1 H1]. apply shows_ns in H2 as [C2 H2]. subst m.
  assert (A : In s srvs1) by (rewrite E; apply in_or_app; right; now left).
  assert (A' : In s' srvs1) by (rewrite E; apply in_or_app; right; right; apply in_or_app; right; now left).
  assert (D : s <> s').
  { intros <-. assert (N : NoDup srvs1) by (repeat constructor; cbn; intuition discriminate). rewrite E in N.
    apply NoDup_remove_2 in N. apply N. apply in_or_app. right. apply in_or_app. right. now left. }
  cbn in A, A'. destruct A as [<-|[<-|[<-|[<-|[]]]]]; destruct A' as [<-|[<-|[<-|[<-|[]]]]]; try congruence; try discriminate C1; try discriminate C2; vm_compute in H2; discriminate H2.
Qed.
(** Two services that show the same namespace: it is listed twice. *)
Theorem C75_duplicates_refuted :
  exists l types, NoDup l /\ full_api types "/foo" /\ get_controller_managers (Some l) types [] = ["/foo"; "/foo"].
Proof. exists ["/foo/list_controllers"; "/foo/list_controllers_of_type"], types1. split; [repeat constructor; cbn; intuition discriminate|]. split; vm_compute; repeat split. Qed.
Print Assumptions C75_duplicates_refuted.
(** A namespace below one called list_controllers is not found. *)
Theorem C75_nested_refuted :
  exists l types m, proper m /\ In (service_at m "list_controllers") l /\ full_api types m /\ get_controller_managers (Some l) types [] = [].
Proof.
  exists ["/list_controllers_of/foo/list_controllers"],
    (fun n => match find (fun s => String.eqb n ("/list_controllers_of/foo/" ++ fst s)) cm_services with Some s => Some (snd s) | None => None end),
    "/list_controllers_of/foo".
  split; [right; split; [discriminate | rewrite <- ends_slash_spec; discriminate]|]. split; [now left|]. split; vm_compute; repeat split.
Qed.
Print Assumptions C75_nested_refuted.
(** A manager that has lost a part of its API stays in the list of a lister. *)
Theorem C75_stale_refuted :
  exists l types, ~ full_api types "/foo" /\ lister [] [(Some l, types1); (Some l, types)] = [["/foo"]; ["/foo"]].
Proof.
  exists ["/foo/list_controllers"], (fun n => if String.eqb n "/foo/switch_controller" then None else types1 n).
  split; [|vm_compute; reflexivity]. intros (_ & _ & _ & _ & X & _). vm_compute in X. discriminate X.
Qed.
Print Assumptions C75_stale_refuted.
