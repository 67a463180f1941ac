(** What the transmission maps compute in exact arithmetic, as affine maps of real numbers: the
    formulas in the class comments of simple_transmission.h, differential_transmission.h (without
    its three misprints, C83) and four_bar_linkage_transmission.h multiplied out.  Used to say how
    far the doubles are off. *)
From Coq Require Import Reals.
From Flocq Require Import Core BinarySingleNaN.
From Verif Require Import TransModel TransSpec TransDouble.
Open Scope R_scope.

(** One output: the coefficients of the inputs, and the constants that are added. *)
Definition row := (list R * list R)%type.

(** Not code: a sum, and a sum of products. *)
Fixpoint sum (l : list R) : R := match l with [] => 0 | x :: l' => x + sum l' end.
Fixpoint dot (cs xs : list R) : R := match cs, xs with c :: cs', x :: xs' => c * x + dot cs' xs' | _, _ => 0 end.

(** The exact output. *)
Definition value (w : row) (xs : list R) : R := dot (fst w) xs + sum (snd w).
(** The sum of the magnitudes of everything that is added up, for inputs of the given magnitudes. *)
Definition weight (w : row) (ms : list R) : R := dot (map Rabs (fst w)) ms + sum (map Rabs (snd w)).

(** Actuator to joint (simple_transmission.h:197-242, differential_transmission.h:269-340, four_bar_linkage_transmission.h:246-314). *)
Definition joint_rows (t : transmission doubled) (q : quantity) : list row :=
  match t with
  | Simple _ r o =>
      let r := B2R r in let o := B2R o in
      match q with
      | Effort | TorqueSensor => [([r], [])]
      | Velocity => [([/ r], [])]
      | Position | AbsolutePosition => [([/ r], [o])]
      end
  | Differential _ [a0; a1] [j0; j1] [o0; o1] ign =>
      let a0 := B2R a0 in let a1 := B2R a1 in let j0 := B2R j0 in let j1 := B2R j1 in
      let position := [([/ (2 * j0 * a0); / (2 * j0 * a1)], [B2R o0]); ([/ (2 * j1 * a0); - / (2 * j1 * a1)], [B2R o1])] in
      match q with
      | Effort | TorqueSensor => [([j0 * a0; j0 * a1], []); ([j1 * a0; - (j1 * a1)], [])]
      | Velocity => [([/ (2 * j0 * a0); / (2 * j0 * a1)], []); ([/ (2 * j1 * a0); - / (2 * j1 * a1)], [])]
      | Position => position
      | AbsolutePosition => if ign then [([0; 1], []); ([1; 0], [])] else position
      end
  | FourBar _ [a0; a1] [j0; j1] [o0; o1] =>
      let a0 := B2R a0 in let a1 := B2R a1 in let j0 := B2R j0 in let j1 := B2R j1 in
      match q with
      | Effort | TorqueSensor => [([j0 * a0; 0], []); ([- (j0 * j1 * a0); j1 * a1], [])]
      | Velocity => [([/ (j0 * a0); 0], []); ([- / (j0 * a0 * j1); / (a1 * j1)], [])]
      | Position | AbsolutePosition => [([/ (j0 * a0); 0], [B2R o0]); ([- / (j0 * a0 * j1); / (a1 * j1)], [B2R o1])]
      end
  | _ => []
  end.

(** Joint to actuator (simple_transmission.h:245-270, differential_transmission.h:342-381, four_bar_linkage_transmission.h:316-355). *)
Definition actuator_rows (t : transmission doubled) (q : quantity) : list row :=
  match t with
  | Simple _ r o =>
      let r := B2R r in let o := B2R o in
      match q with
      | Effort => [([/ r], [])]
      | Velocity => [([r], [])]
      | Position => [([r], [- (o * r)])]
      | _ => []
      end
  | Differential _ [a0; a1] [j0; j1] [o0; o1] _ =>
      let a0 := B2R a0 in let a1 := B2R a1 in let j0 := B2R j0 in let j1 := B2R j1 in let o0 := B2R o0 in let o1 := B2R o1 in
      match q with
      | Effort => [([/ (2 * j0 * a0); / (2 * j1 * a0)], []); ([/ (2 * j0 * a1); - / (2 * j1 * a1)], [])]
      | Velocity => [([j0 * a0; j1 * a0], []); ([j0 * a1; - (j1 * a1)], [])]
      | Position => [([j0 * a0; j1 * a0], [- (o0 * j0 * a0); - (o1 * j1 * a0)]); ([j0 * a1; - (j1 * a1)], [- (o0 * j0 * a1); o1 * j1 * a1])]
      | _ => []
      end
  | FourBar _ [a0; a1] [j0; j1] [o0; o1] =>
      let a0 := B2R a0 in let a1 := B2R a1 in let j0 := B2R j0 in let j1 := B2R j1 in let o0 := B2R o0 in let o1 := B2R o1 in
      match q with
      | Effort => [([/ (a0 * j0); 0], []); ([/ a1; / (j1 * a1)], [])]
      | Velocity => [([j0 * a0; 0], []); ([a1; j1 * a1], [])]
      | Position => [([j0 * a0; 0], [- (o0 * j0 * a0)]); ([a1; j1 * a1], [- (o0 * a1); - (o1 * j1 * a1)])]
      | _ => []
      end
  | _ => []
  end.

(** All outputs, and all their weights. *)
Definition values (l : list row) (xs : list R) : list R := map (fun w => value w xs) l.
Definition weights (l : list row) (ms : list R) : list R := map (fun w => weight w ms) l.

(** A reduction and any other value of ordinary size. *)
Definition ordinary_reduction (r : num doubled) : Prop :=
  is_finite r = true /\ bpow radix2 (-64) <= Rabs (B2R r) <= bpow radix2 64.
Definition ordinary_value (x : num doubled) : Prop := is_finite x = true /\ Rabs (B2R x) <= bpow radix2 200.
Definition ordinary (t : transmission doubled) : Prop :=
  match t with
  | Simple _ r o => ordinary_reduction r /\ ordinary_value o
  | Differential _ ar jr off _ | FourBar _ ar jr off => Forall ordinary_reduction (ar ++ jr) /\ Forall ordinary_value off
  end.

(** A finite double within the given relative (to [w]) and absolute error of [v]. *)
Definition within (rel abs : R) (y : num doubled) (v w : R) : Prop :=
  is_finite y = true /\ Rabs (B2R y - v) <= rel * w + abs.
(** The same for each element. *)
Fixpoint all_within (rel abs : R) (ys : list (num doubled)) (vs ws : list R) : Prop :=
  match ys, vs, ws with
  | [], [], [] => True
  | y :: ys', v :: vs', w :: ws' => within rel abs y v w /\ all_within rel abs ys' vs' ws'
  | _, _, _ => False
  end.
