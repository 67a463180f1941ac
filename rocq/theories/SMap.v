(** [std::map<std::string, A>]: association list kept sorted by key.  Key order is
    [std::string::operator<], i.e. lexicographic by unsigned byte, which is
    [String.compare] (C++ standard [map], [basic_string]; used by the containers
    cited in the models). *)
From Coq Require Export String List Bool.
Export ListNotations.

(** std::map keyed by names, for example resource_manager.h:147-148, interface_manager.h:302-305,
    transmission_interface_loader.h:88. *)
Definition smap (A : Type) := list (string * A).

(** [std::map::find] (resource_manager.h:115, interface_manager.h:189, 216). *)
Fixpoint sfind {A} (k : string) (m : smap A) : option A :=
  match m with
  | [] => None
  | (k', v) :: m' => if String.eqb k k' then Some v else sfind k m'
  end.

(** [m[k] = v]: insert or overwrite, keeping the order (resource_manager.h:95-105, interface_manager.h:145-146, 230-231). *)
Fixpoint sset {A} (k : string) (v : A) (m : smap A) : smap A :=
  match m with
  | [] => [(k, v)]
  | (k', v') :: m' =>
      match String.compare k k' with
      | Lt => (k, v) :: m
      | Eq => (k, v) :: m'
      | Gt => (k', v') :: sset k v m'
      end
  end.

(** Keys in iteration order (resource_manager.h:81-84, interface_manager.h:254-257). *)
Definition skeys {A} (m : smap A) : list string := map fst m.

(** [std::set<std::string>::insert] (hardware_interface.h:55, combined_robot_hw.cpp:233). *)
Fixpoint set_insert (k : string) (s : list string) : list string :=
  match s with
  | [] => [k]
  | k' :: s' =>
      match String.compare k k' with
      | Lt => k :: s
      | Eq => s
      | Gt => k' :: set_insert k s'
      end
  end.
